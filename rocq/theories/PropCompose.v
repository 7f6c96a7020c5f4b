(* C86: the text that an application shows for what keyd types, with the compose file that
   comes with keyd. *)
From Coq Require Import String.
From Verif Require Import Base Lib Types Keys KeyTable Kbd Str MacroExec MacroParse UnicodeTable Config Match Device Daemon SpecNotation
  NotationProofs MacroProofs PropNotation SpecStuck MacroLife SpecClient PropClient Compose SpecCompose ComposeProofs.
Local Open Scope N_scope.
Local Open Scope list_scope.
Local Notation length := List.length.

(* ---- any version of the Unicode data ------------------------------------------------------ *)
Lemma codes_high data : Forall (fun cp => 128 <= cp) (codes_of data).
Proof.
  apply Forall_forall. intros cp H. apply in_flat_map in H as (l & _ & H). unfold line_code in H.
  destruct (hex (field l)) as [x|]; [|contradiction]. destruct (encodable x && (128 <=? x)) eqn:E; [|contradiction].
  destruct H as [<-|[]]. apply andb_true_iff in E as [_ E]. now apply N.leb_le.
Qed.
(* Whatever Unicode data the files were made from, as long as the table has no more places
   than there are sequences: for a character of the table, the sequence that keyd types
   (the index it looks up, then unicode_get_sequence) shows that character. *)
Theorem C86_generated : forall data cp i, let codes := codes_of data in
  N.of_nat (length codes) <= 46656 -> table_lookup codes cp 0 = Some i ->
  shows (rules (compose_file codes)) (flat_map (fun c => [(c, true); (c, false)]) (unicode_get_sequence i)) (utf8 cp).
Proof.
  intros data cp i codes Hs H. rewrite file_rules by apply codes_high. apply lookup_at in H as (_ & A & B). rewrite N.sub_0_r in *.
  rewrite compose_ok by lia. now apply shows_composed.
Qed.
(* With more, two characters get the same sequence, of which only one can be shown. *)
Theorem C86_size_refuted : exists codes cp cp' i i', cp <> cp' /\ Forall (fun cp => 128 <= cp < 55296) codes
  /\ N.of_nat (length codes) = 46657 /\ table_lookup codes cp 0 = Some i /\ table_lookup codes cp' 0 = Some i'
  /\ unicode_get_sequence i = unicode_get_sequence i'.
Proof.
  exists (upfrom 128 (N.to_nat 46657)), 128, 46784, 0, 46656. split; [discriminate|]. split.
  - apply Forall_forall. intros cp H. apply upfrom_in in H. rewrite N2Nat.id in H. lia.
  - split; [now rewrite upfrom_length, N2Nat.id|]. rewrite !lookup_upfrom, N2Nat.id. vm_compute. auto.
Qed.

(* ---- the release: keyd input ----------------------------------------------------------------- *)
(* what can be typed: the characters of a US keyboard and of the table *)
Definition typable (cp : N) : Prop := visible cp \/ cp = 32 \/ cp = 10 \/ cp = 9 \/ In cp shipped_codes.
Local Opaque unicode_runs us_rows.
Lemma shipped_table cp : In cp shipped_codes -> exists idx, in_table cp idx.
Proof.
  intros H. destruct (in_lookup shipped_codes cp 0 H) as [i E]. exists i. apply table_index. unfold unicode_lookup_index. rewrite <- lookup_runs. exact E.
Qed.
Lemma table_shipped cp idx : in_table cp idx -> nth_error shipped_codes (N.to_nat idx) = Some cp /\ idx < N.of_nat (length shipped_codes).
Proof.
  intros H. apply table_index in H. unfold unicode_lookup_index in H. rewrite <- lookup_runs in H. apply lookup_at in H as (_ & A & B).
  rewrite N.sub_0_r in *. now split.
Qed.
Lemma typable_typed cp : typable cp -> scalar cp /\ exists evs, char_typed cp evs.
Proof.
  intros [H|[->|[->|[->|H]]]]; try (split; [unfold scalar; lia|eexists; first [exact ct_blank|exact ct_newline|exact ct_tab]]).
  - split; [unfold scalar, visible in *; lia|]. destruct (ascii_us cp H) as ([code sh] & E & _). apply us_find_ok in E.
    destruct sh; [exists (VKey 42 true :: press_release code ++ [VKey 42 false]); apply ct_shifted; exact E|exists (press_release code); apply ct_key; exact E].
  - split; [pose proof shipped_high as F; rewrite Forall_forall in F; specialize (F _ H); unfold scalar; lia|].
    destruct (shipped_table cp H) as [idx I]. eexists. now apply (ct_compose cp idx).
Qed.
Definition shown_rules := rules (compose_file shipped_codes).
Lemma keys_press l : keys_sent (flat_map press_release l) = flat_map hit l.
Proof. induction l as [|c l IH]; [reflexivity|]. cbn [flat_map]. unfold keys_sent in *. rewrite flat_map_app, IH. reflexivity. Qed.
Lemma low_utf8 cp : cp < 128 -> utf8 cp = [cp].
Proof. intros H. unfold utf8. destruct (N.ltb_spec cp 128); [reflexivity|lia]. Qed.
Lemma shows_char cp evs : char_typed cp evs -> shows shown_rules (keys_sent evs) (utf8 cp).
Proof.
  unfold shown_rules. rewrite shipped_rules. intros [c code U|c code U| | | |c idx U].
  - pose proof (us_low _ _ _ U). rewrite low_utf8 by lia. apply shows_key. now apply us_key_sym.
  - pose proof (us_low _ _ _ U). rewrite low_utf8 by lia.
    change (keys_sent (VKey 42 true :: press_release code ++ [VKey 42 false])) with ((42, true) :: hit code ++ [(42, false)]).
    apply shows_shifted. now apply us_key_sym.
  - rewrite low_utf8 by lia. apply (shows_key _ 57). reflexivity.
  - rewrite low_utf8 by lia. apply (shows_key _ 28). reflexivity.
  - rewrite low_utf8 by lia. apply (shows_key _ 15). reflexivity.
  - rewrite keys_press. destruct (table_shipped _ _ U). apply shows_composed; auto. apply shipped_small.
Qed.
Lemma shows_text t : forall cps evss, Forall2 char_typed cps evss -> shows shown_rules (keys_sent (flat_map (paused t) evss)) (flat_map utf8 cps).
Proof.
  induction 1 as [|cp evs cps evss H F IH]; cbn [flat_map]; [apply shows_nil|].
  unfold keys_sent in *. rewrite flat_map_app. apply shows_app; auto.
  replace (flat_map _ (paused t evs)) with (keys_sent evs); [now apply shows_char|].
  unfold paused, keys_sent. rewrite flat_map_app. destruct (t =? 0); cbn [flat_map]; now rewrite !app_nil_r.
Qed.
(* The text of a message of type input, whatever characters of the keyboard and the table it
   consists of, is what an application in front shows, character for character, and then
   success is answered. *)
Theorem C86_input : forall wr con m texts grabs d cps,
  i_type m = IInput -> carries m (flat_map utf8 cps) -> i_timeout m <= 1000000 -> Forall typable cps ->
  exists d' evs, handle_client wr con m texts grabs d = Ok d' /\ only_sent d d' (evs ++ [VReply con true])
    /\ shows shown_rules (keys_sent (evs ++ [VReply con true])) (flat_map utf8 cps).
Proof.
  intros wr con m texts grabs d cps Ht Hc Hto Hp.
  assert (X : Forall scalar cps /\ exists evss, Forall2 char_typed cps evss).
  { clear Hc. induction Hp as [|cp cps H F [IH1 [evss IH2]]]; [split; [constructor|exists []; constructor]|].
    apply typable_typed in H as [H1 [evs H2]]. split; [now constructor|]. exists (evs :: evss). now constructor. }
  destruct X as [Hs [evss F]]. destruct (C54_types wr con m texts grabs d cps evss Ht Hc Hto Hs F) as (d' & E1 & E2).
  exists d', (flat_map (paused (i_timeout m)) evss). split; auto. split; auto.
  unfold keys_sent. rewrite flat_map_app. cbn [flat_map]. rewrite app_nil_r. now apply shows_text.
Qed.

(* ---- the release: text of macros -------------------------------------------------------------- *)
(* the character at the start of the table is not typed by macros (C27_first_char_refuted) *)
Definition writable (cp : N) : Prop := visible cp \/ (In cp shipped_codes /\ cp <> 128).
Lemma writable_scalar cp : writable cp -> scalar cp.
Proof.
  intros [H|[H _]]; [unfold visible, scalar in *; lia|]. pose proof shipped_high as F. rewrite Forall_forall in F. specialize (F _ H). unfold scalar. lia.
Qed.
Lemma presses_app a b : presses (a ++ b) = presses a ++ presses b. Proof. apply flat_map_app. Qed.
Lemma presses_hits l : presses (flat_map (fun c => [OKey c true; OKey c false]) l) = flat_map hit l.
Proof. induction l as [|c l IH]; [reflexivity|]. cbn [flat_map]. rewrite presses_app, IH. reflexivity. Qed.
Lemma first_place cp : in_table cp 0 -> cp = 128.
Proof. intros H. apply table_shipped in H as [H _]. assert (E : nth_error shipped_codes (N.to_nat 0) = Some 128) by (vm_compute; reflexivity). congruence. Qed.
Lemma high_long cp : 128 <= cp -> Nat.eqb (length (utf8 cp)) 1 = false.
Proof. intros H. unfold utf8. destruct (N.ltb_spec cp 128); [lia|]. destruct (cp <? 2048); [reflexivity|]. now destruct (cp <? 65536). Qed.
Lemma words_text : forall cps fuel m, Forall writable cps -> (length (flat_map utf8 cps) < fuel)%nat -> (length m + length cps <= 256)%nat ->
  exists es o, parse_text fuel (flat_map utf8 cps) m = Ok (Some (m ++ es)) /\ length es = length cps
    /\ shows shown_rules (presses o) (flat_map utf8 cps)
    /\ forall rest, mexec 0 None (es ++ rest) = o ++ mexec 0 None rest.
Proof.
  induction cps as [|cp cps IH]; intros fuel m F Hf Hl; (destruct fuel as [|fuel]; [lia|]); cbn [flat_map].
  - exists [], []. cbn [parse_text utf8_read_char bind]. rewrite app_nil_r. repeat split; auto. apply shows_nil.
  - pose proof (Forall_inv F) as Hc. apply Forall_inv_tail in F. cbn [flat_map length] in *. rewrite app_length in Hf.
    cbn [parse_text]. rewrite utf8_decode by now apply writable_scalar. cbn [bind]. rewrite skipn_utf8.
    assert (Z : exists en o, (if Nat.eqb (length (utf8 cp)) 1 && (cp <? 128)
        then match ascii_key keycode_table 0 (ch (utf8 cp ++ flat_map utf8 cps) 0) with Some d => add_entry m MKeySeq d | None => Some m end
        else match unicode_lookup_index cp with Some x => if 0 <? x then add_entry m MUnicode x else Some m | None => Some m end)
        = Some (m ++ [en]) /\ shows shown_rules (presses o) (utf8 cp)
        /\ forall rest, mexec 0 None (en :: rest) = o ++ mexec 0 None rest).
    { unfold add_entry. destruct (Nat.ltb_spec (length m) 256); [|lia]. destruct Hc as [V|[I N]].
      - rewrite low_utf8 by (unfold visible in V; lia). destruct (ascii_us cp V) as [p [P1 [P2 P3]]]. cbn [length Nat.eqb andb].
        destruct (N.ltb_spec cp 128); [|unfold visible in V; lia]. unfold ch. cbn [app nth]. rewrite P3.
        rewrite (N.mod_small (char_data p)) by (unfold char_data; destruct (snd p); lia).
        exists (mkM MKeySeq (char_data p)), (strokes (fst p) (snd p)). split; [reflexivity|]. split.
        + apply us_find_ok, us_key_sym in P1 || (destruct p as [code sh]; apply us_find_ok, us_key_sym in P1).
          unfold shown_rules. rewrite shipped_rules. cbn [fst snd]. destruct sh.
          * change (presses (strokes code true)) with ((42, true) :: hit code ++ [(42, false)]). now apply shows_shifted.
          * now apply (shows_key _ code).
        + intros rest. cbn [mexec m_type m_data Z.eqb negb app]. now rewrite char_strokes by auto.
      - pose proof shipped_high as Hh. rewrite Forall_forall in Hh. specialize (Hh _ I). rewrite high_long by lia. cbn [andb].
        destruct (shipped_table cp I) as [idx T]. pose proof (table_shipped _ _ T) as [T1 T2]. pose proof shipped_small as Sm.
        assert (idx <> 0) by (intros ->; now apply first_place in T). pose proof T as T'. apply table_index in T'. rewrite T'.
        destruct (N.ltb_spec 0 idx); [|lia]. rewrite (N.mod_small idx) by lia.
        exists (mkM MUnicode idx), (flat_map (fun c => [OKey c true; OKey c false]) (compose_keys idx)). split; [reflexivity|]. split.
        + rewrite presses_hits. unfold shown_rules. rewrite shipped_rules. now apply shows_composed.
        + intros rest. cbn [mexec m_type m_data Z.eqb negb app]. rewrite compose_ok by lia. reflexivity. }
    destruct Z as (en & o & Z1 & Z2 & Z3). cbv zeta.
    match goal with |- context [match ?X with Some m' => parse_text fuel _ m' | None => _ end] => replace X with (Some (m ++ [en])) by (symmetry; exact Z1) end.
    destruct (utf8_nonempty cp) as [n En]. rewrite En in *.
    destruct (IH fuel (m ++ [en]) F) as (es & o2 & G1 & G2 & G3 & G4); [lia|rewrite app_length; cbn [length]; lia|].
    exists (en :: es), (o ++ o2). rewrite G1, <- app_assoc. split; [reflexivity|]. split; [cbn [length]; lia|]. split.
    + rewrite presses_app. now apply shows_app.
    + intros rest. cbn [app]. now rewrite Z3, G4, app_assoc.
Qed.
Lemma timeval_is_pause w : ~ In 0 w -> ~ In 10 w -> is_timeval w = true -> pause_notation w.
Proof.
  intros V0 V1 H. unfold is_timeval in H. destruct (is_digit (ch w 0)) eqn:D; [|discriminate].
  destruct (skip_digits_split w) as [ds [E [F N]]]. specialize (N D). rewrite !andb_true_iff, orb_true_iff in H.
  destruct H as [[A B] C]. exists ds. split; auto. split; auto. rewrite E at 1. f_equal.
  assert (W0 : ~ In 0 (skip_digits w)) by (intros X; apply V0; rewrite E; apply in_app_iff; now right).
  assert (W1 : ~ In 10 (skip_digits w)) by (intros X; apply V1; rewrite E; apply in_app_iff; now right).
  destruct (skip_digits w) as [|a [|b [|c r]]]; unfold ch in *; cbn [nth] in *; try discriminate.
  - apply N.eqb_eq in A. apply N.eqb_eq in B. now subst.
  - exfalso. destruct C as [C|C]; apply N.eqb_eq in C; subst; [apply W0|apply W1]; cbn; auto.
Qed.
Lemma writable_bytes w : Forall writable w -> Forall (fun b => 33 <= b) (flat_map utf8 w).
Proof.
  intros F. apply Forall_forall. intros b H. apply in_flat_map in H as (cp & H1 & H2). rewrite Forall_forall in F. destruct (F _ H1) as [V|[I _]].
  - unfold visible in V. rewrite low_utf8 in H2 by lia. destruct H2 as [<-|[]]. lia.
  - pose proof shipped_high as Hh. rewrite Forall_forall in Hh. specialize (Hh _ I). pose proof (utf8_high cp ltac:(lia)) as X.
    rewrite Forall_forall in X. specialize (X _ H2). cbv beta in X. lia.
Qed.
Lemma word_token w m : literal_word (flat_map utf8 w) -> Forall writable w -> (length m + length w <= 256)%nat ->
  exists es o, parse_token (flat_map utf8 w) m = Ok (Some (m ++ es)) /\ length es = length w
    /\ shows shown_rules (presses o) (flat_map utf8 w)
    /\ forall rest, mexec 0 None (es ++ rest) = o ++ mexec 0 None rest.
Proof.
  intros (_ & K & P & C) F Hl. unfold parse_token. pose proof (writable_bytes w F) as V. rewrite Forall_forall in V.
  destruct (parse_key_sequence (flat_map utf8 w)) as [[c mm]|] eqn:E; [exfalso; eapply K, pks_notation, E|].
  replace (has_char 43 (flat_map utf8 w)) with false.
  - destruct (is_timeval (flat_map utf8 w)) eqn:T.
    + exfalso. apply P, timeval_is_pause; auto; intros X; specialize (V _ X); lia.
    + apply words_text; auto.
  - symmetry. destruct (has_char 43 _) eqn:X; auto. exfalso. apply C. unfold has_char in X. apply existsb_exists in X as [x [X1 X2]].
    apply N.eqb_eq in X2. now subst.
Qed.
Lemma words_tokens ws : Forall (fun w => literal_word (flat_map utf8 w) /\ Forall writable w) ws -> forall m, (length m + length (concat ws) <= 256)%nat ->
  exists es o, parse_tokens (map (flat_map utf8) ws) m = Ok (Some (m ++ es)) /\ length es = length (concat ws)
    /\ shows shown_rules (presses o) (flat_map utf8 (concat ws))
    /\ forall rest, mexec 0 None (es ++ rest) = o ++ mexec 0 None rest.
Proof.
  induction 1 as [|w ws [H H'] F IH]; intros m Hl; cbn [parse_tokens concat map] in *.
  - exists [], []. rewrite app_nil_r. repeat split; auto. apply shows_nil.
  - rewrite app_length in Hl. destruct (word_token w m H H' ltac:(lia)) as [es [o [E1 [E2 [E3 E4]]]]].
    rewrite E1. cbn [bind]. destruct (IH (m ++ es)) as [es2 [o2 [G1 [G2 [G3 G4]]]]]; [rewrite app_length; lia|].
    exists (es ++ es2), (o ++ o2). rewrite G1, <- app_assoc. split; auto. rewrite !app_length, E2, G2. split; auto.
    split; [rewrite presses_app, flat_map_app; now apply shows_app|]. intros rest. rewrite <- !app_assoc. now rewrite E4, G4.
Qed.
Lemma presses_events o : presses (key_events o) = presses o.
Proof. induction o as [|e o IH]; [reflexivity|]. destruct e; cbn [key_events filter presses flat_map]; unfold key_events, presses in IH; rewrite ?IH; cbn [flat_map]; rewrite ?IH; reflexivity. Qed.
(* A macro that consists of words of text, in any characters of the keyboard and the table
   (except its first), shows these words (without the blanks between them), for every macro
   sequence timeout. *)
Theorem C86_macro : forall ws, Forall (fun w => literal_word (flat_map utf8 w) /\ Forall writable w) ws -> (length (concat ws) <= 256)%nat ->
  exists m, macro_parse (sentence (map (flat_map utf8) ws)) = Ok (Some m)
    /\ forall t, shows shown_rules (presses (macro_execute m t)) (flat_map utf8 (concat ws)).
Proof.
  intros ws F L. unfold macro_parse. rewrite tokens_sentence.
  - destruct (words_tokens ws F [] L) as [es [o [E1 [E2 [E3 E4]]]]]. exists es. split; [exact E1|]. intros t.
    rewrite <- presses_events, C27_timeout, presses_events. unfold macro_execute. specialize (E4 []). rewrite app_nil_r in E4. rewrite E4.
    cbn [mexec]. now rewrite app_nil_r.
  - apply Forall_map. eapply Forall_impl; [|exact F]. intros w [[W _] V]. split; auto. intros X. apply writable_bytes in V. rewrite Forall_forall in V.
    specialize (V _ X). lia.
Qed.

(* ---- examples -------------------------------------------------------------------------------------- *)
(* three lines of data: one below 128, one above, and a surrogate *)
Example C86_example_data :
  let data := bs "0041;LATIN CAPITAL LETTER A" ++ [10] ++ bs "00E9;LATIN SMALL LETTER E WITH ACUTE" ++ [10] ++ bs "D800;Surrogate" ++ [10]
              ++ bs "20AC;EURO SIGN" ++ [10] in
  codes_of data = [233; 8364]
  /\ compose_file (codes_of data) = bs "<Cancel> <0> <0> <0> : """ ++ utf8 233 ++ [34; 10] ++ bs "<Cancel> <0> <0> <1> : """ ++ utf8 8364 ++ [34; 10]
  /\ table_lookup (codes_of data) 8364 0 = Some 1
  /\ application (rules (compose_file (codes_of data))) (flat_map hit (unicode_get_sequence 1 ++ [30])) ([], false, bs "x")
     = ([], false, bs "x" ++ utf8 8364 ++ bs "a").
Proof. vm_compute. auto. Qed.
Lemma writable_check cp : runs_index unicode_runs cp 0 <> None -> cp <> 128 -> writable cp.
Proof.
  intros H N. right. split; auto. rewrite <- lookup_runs in H. destruct (table_lookup _ _ _) as [i|] eqn:E; [|congruence].
  apply lookup_at in E as (_ & _ & E). eapply nth_error_In, E.
Qed.
(* the words "caf<e acute>" and "<euro>5" *)
Example C86_example : Forall (fun w => literal_word (flat_map utf8 w) /\ Forall writable w) [[99; 97; 102; 233]; [8364; 53]]
  /\ macro_parse (sentence (map (flat_map utf8) [[99; 97; 102; 233]; [8364; 53]]))
     = Ok (Some [mkM MKeySeq 46; mkM MKeySeq 30; mkM MKeySeq 33; mkM MUnicode 105; mkM MUnicode 7390; mkM MKeySeq 6]).
Proof.
  split; [|vm_compute; reflexivity].
  assert (Ck : forall w, w <> [] -> parse_key_sequence w = None -> last w 0 <> 115 -> has_char 43 w = false -> literal_word w).
  { intros w H1 H3 H4 H5. split; auto. split; [|split].
    - intros K. now apply key_notation_parses in K.
    - intros [ds [_ [_ ->]]]. apply H4. change (bs "ms") with ([109] ++ [115]). rewrite app_assoc. apply last_last.
    - intros X. unfold has_char in H5. assert (Y : existsb (N.eqb 43) w = true) by (apply existsb_exists; exists 43; auto). congruence. }
  assert (V : forall c, (33 <=? c) && (c <=? 126) = true -> writable c).
  { intros c H. left. apply andb_true_iff in H as [A B]. apply N.leb_le in A. apply N.leb_le in B. split; auto. }
  constructor; [|constructor; [|constructor]].
  - split; [apply Ck; vm_compute; congruence|].
    constructor; [now apply V|]. constructor; [now apply V|]. constructor; [now apply V|]. constructor; [|constructor].
    apply writable_check; [|discriminate]. assert (E : runs_index unicode_runs 233 0 = Some 105) by (vm_compute; reflexivity). congruence.
  - split; [apply Ck; vm_compute; congruence|].
    constructor; [|constructor; [now apply V|constructor]].
    apply writable_check; [|discriminate]. assert (E : runs_index unicode_runs 8364 0 = Some 7390) by (vm_compute; reflexivity). congruence.
Qed.
Definition C86_all := (C86_generated, C86_size_refuted, C86_input, C86_macro).
Print Assumptions C86_all.
