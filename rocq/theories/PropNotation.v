(* C27 (macros), C34 (key notation), C35 (modifier sets), C36 (UTF-8), C37 (compose
   sequences), C38 (typed text). *)
From Coq Require Import String Lia.
From Verif Require Import Base Lib KeyTable Keys Types Str UnicodeTable MacroParse MacroExec Kbd SpecNotation NotationProofs MacroProofs
  SpecTrace ModsProofs.
Local Open Scope N_scope.
Local Open Scope list_scope.
Local Notation length := List.length.

(* ---- C35 ------------------------------------------------------------------------- *)
(* The printed form of a modifier set reads back as that set. *)
Theorem C35_round_trip : forall mods, mods < 32 -> parse_modset (modstring mods) = Some mods.
Proof.
  intros mods H.
  assert (X : forallb (fun m => match parse_modset (modstring m) with Some x => x =? m | None => false end) (map N.of_nat (seq 0 32)) = true)
    by (vm_compute; reflexivity).
  rewrite forallb_forall in X. specialize (X mods).
  assert (I : In mods (map N.of_nat (seq 0 32))). { apply in_map_iff. exists (N.to_nat mods). split; [lia|]. apply in_seq. lia. }
  specialize (X I). destruct (parse_modset _) as [x|]; [|discriminate]. apply N.eqb_eq in X. now subst.
Qed.
(* Exactly the dash-separated (or dash-terminated) lists of the letters C M A S G
   are read, as the set of the modifiers they stand for. *)
Theorem C35_language : forall s m,
  parse_modset s = Some m <-> exists ls, denotes ls m /\ (s = joined ls \/ s = dashed ls).
Proof.
  intros s m. split.
  - intros H. destruct (pmf_ok [] 0 denotes_nil (length s) s m ltac:(lia) H) as [ls [A B]]. eauto.
  - intros [ls [A B]]. eapply (pmf_complete [] 0 denotes_nil); eauto.
Qed.
(* Neither order nor repetition of the letters matters. *)
Theorem C35_order : forall ls ls',
  Forall (fun l => exists b, letter l b) ls -> (forall l, In l ls <-> In l ls') ->
  exists m, parse_modset (joined ls) = Some m /\ parse_modset (joined ls') = Some m.
Proof.
  intros ls ls' F P. destruct (letters_denote ls F) as [m Hm]. exists m. split; apply C35_language; eauto using denotes_perm.
Qed.
Example C35_example : parse_modset (bs "C-S-M") = Some 14 /\ parse_modset (bs "M-C-S-") = Some 14
  /\ parse_modset (bs "C-x") = None /\ parse_modset (bs "CS") = None.
Proof. vm_compute. auto. Qed.

(* ---- C34 ------------------------------------------------------------------------- *)
Definition name_check (c : N) (nm : str) (m : N) : bool :=
  match nm with
  | [] => true
  | _ => match nm with _ :: 45 :: _ => false | _ => true end
         && match scan_table keycode_table 0 0 nm with Some (c', m') => (c' =? c) && (m' =? m) | None => false end
  end.
Definition row_check (c : N) : bool :=
  match name_of c with Some nm => name_check c nm 0 | None => true end
  && match alt_name_of c with Some nm => name_check c nm 0 | None => true end
  && match shifted_name_of c with Some nm => name_check c nm 4 | None => true end.
Lemma rows_checked : forallb row_check (map N.of_nat (seq 0 256)) = true.
Proof. vm_compute. reflexivity. Qed.
Lemma row_checked c : row_check c = true.
Proof.
  destruct (N.lt_ge_cases c 256) as [H|H].
  - pose proof rows_checked as X. rewrite forallb_forall in X. apply X. apply in_map_iff. exists (N.to_nat c).
    split; [lia|]. apply in_seq. lia.
  - unfold row_check, name_of, alt_name_of, shifted_name_of, row. rewrite nth_overflow; [reflexivity|].
    rewrite table_length. lia.
Qed.
Lemma named_parses c nm sh ls m : name_check c nm sh = true -> nm <> [] -> denotes ls m ->
  parse_key_sequence (dashed ls ++ nm) = Some (c, N.lor m sh).
Proof.
  intros H Hn D. unfold name_check in H. destruct nm as [|x nm]; [congruence|]. apply andb_true_iff in H as [H1 H2].
  unfold parse_key_sequence. destruct (dashed ls ++ x :: nm) as [|y r] eqn:E; [destruct ls; discriminate|].
  rewrite <- E, (strip_dashed ls 0 [] (x :: nm) m denotes_nil D).
  - rewrite scan_mods. destruct (scan_table keycode_table 0 0 (x :: nm)) as [[c' m']|]; [|discriminate].
    apply andb_true_iff in H2 as [A B]. apply N.eqb_eq in A. apply N.eqb_eq in B. now subst.
  - intros z r' X. injection X as -> ->. discriminate.
Qed.
(* Every key written with any modifier letters is read back; likewise for the
   alternative name and, with shift added, for the shifted name. *)
Theorem C34_name : forall c nm ls m, name_of c = Some nm -> nm <> [] -> denotes ls m ->
  parse_key_sequence (dashed ls ++ nm) = Some (c, m).
Proof.
  intros c nm ls m Hn H D. pose proof (row_checked c) as R. unfold row_check in R. rewrite Hn in R.
  rewrite !andb_true_iff in R. rewrite (named_parses c nm 0 ls m) by (auto; apply R). now rewrite N.lor_0_r.
Qed.
Theorem C34_alt_name : forall c nm ls m, alt_name_of c = Some nm -> nm <> [] -> denotes ls m ->
  parse_key_sequence (dashed ls ++ nm) = Some (c, m).
Proof.
  intros c nm ls m Hn H D. pose proof (row_checked c) as R. unfold row_check in R. rewrite Hn in R.
  rewrite !andb_true_iff in R. rewrite (named_parses c nm 0 ls m) by (auto; apply R). now rewrite N.lor_0_r.
Qed.
Theorem C34_shifted_name : forall c nm ls m, shifted_name_of c = Some nm -> nm <> [] -> denotes (ls ++ [83]) m ->
  parse_key_sequence (dashed ls ++ nm) = Some (c, m).
Proof.
  intros c nm ls m Hn H D. pose proof (row_checked c) as R. unfold row_check in R. rewrite Hn in R.
  rewrite !andb_true_iff in R. pose proof D as [F _]. apply Forall_app in F as [F _].
  destruct (letters_denote ls F) as [m0 D0]. rewrite (named_parses c nm 4 ls m0) by (auto; apply R).
  now rewrite (denotes_fun _ _ _ D (denotes_snoc _ _ _ _ D0 letter_S)).
Qed.
(* Nothing else is read. *)
Theorem C34_only : forall s c m, parse_key_sequence s = Some (c, m) ->
  exists ls nm, s = dashed ls ++ nm
    /\ ((denotes ls m /\ (name_of c = Some nm \/ alt_name_of c = Some nm))
        \/ (denotes (ls ++ [83]) m /\ shifted_name_of c = Some nm)).
Proof.
  intros s c m. unfold parse_key_sequence. destruct s as [|x r]; [discriminate|].
  destruct (strip_mods 0 (x :: r)) as [[m0 nm]|] eqn:E; [|discriminate]. intros H.
  apply (strip_ok (length (x :: r)) 0 []) in E as [ls [D Ew]]; [|lia|apply denotes_nil]. cbn [app] in D.
  apply scan_ok in H as [j [n [al [sh [Ec [Hj Hm]]]]]]. rewrite N.add_0_l in Ec. subst c.
  exists ls, nm. split; auto.
  unfold name_of, alt_name_of, shifted_name_of, row. rewrite Nat2N.id.
  rewrite (nth_error_nth _ _ _ Hj). cbn [fst snd]. destruct Hm as [[-> ->]|[Hm ->]].
  - right. split; auto. apply (denotes_snoc _ _ _ _ D letter_S).
  - left. split; auto. destruct Hm as [-> | ->]; auto.
Qed.
(* "C-" is read as control with the left control key, whose alternative name is empty
   (also shift, alt and meta). *)
Theorem C34_empty_name_refuted : exists s, parse_key_sequence s = Some (29, 8) /\ s = bs "C-".
Proof. eexists. split; [|reflexivity]. vm_compute. reflexivity. Qed.
Example C34_example : name_of 30 = Some (bs "a") /\ denotes [67; 65] 9 /\ dashed [67; 65] ++ bs "a" = bs "C-A-a"
  /\ parse_key_sequence (bs "C-A-a") = Some (30, 9) /\ parse_key_sequence (bs "C-?") = Some (53, 12)
  /\ parse_key_sequence (bs "X-a") = None.
Proof.
  split; [reflexivity|]. split; [|vm_compute; auto].
  apply (denotes_snoc [67] 8 65 0); [|constructor]. apply (denotes_snoc [] 0 67 3 denotes_nil letter_C).
Qed.

(* ---- C36 ------------------------------------------------------------------------- *)
Theorem C36_decode : forall cp rest, scalar cp ->
  utf8_read_char (utf8 cp ++ rest) = Ok (length (utf8 cp), cp).
Proof. exact utf8_decode. Qed.
Theorem C36_end : forall s, (exists cp, utf8_read_char s = Ok (0%nat, cp)) <-> s = [].
Proof.
  intros s. split.
  - intros [cp H]. destruct s as [|b r]; auto. cbn [utf8_read_char] in H.
    destruct (240 <=? b); [destruct (_ || _); discriminate|]. destruct (224 <=? b); [destruct (_ || _); discriminate|].
    destruct (192 <=? b); [destruct (_ =? _); discriminate|discriminate].
  - intros ->. eexists. reflexivity.
Qed.
(* the length of a text is its number of characters *)
Theorem C36_strlen : forall cps, Forall scalar cps -> utf8_strlen (flat_map utf8 cps) = Ok (length cps).
Proof. intros cps F. unfold utf8_strlen. rewrite utf8_strlen_ok by (auto; lia). now rewrite Nat.add_0_r. Qed.
Example C36_example : scalar 8364 /\ utf8 8364 = [226; 130; 172] /\ utf8_read_char (utf8 8364 ++ bs "x") = Ok (3%nat, 8364)
  /\ utf8_strlen (flat_map utf8 [97; 233; 8364; 128512]) = Ok 4%nat.
Proof. split; [split; lia|]. vm_compute. auto. Qed.

(* ---- C37 ------------------------------------------------------------------------- *)
(* Different characters of the table are typed differently; every sequence consists of
   the cancel key and three letters or digits (so none is a proper prefix of another). *)
Theorem C37_unambiguous : forall cp cp' i i',
  unicode_lookup_index cp = Some i -> unicode_lookup_index cp' = Some i' -> cp <> cp' ->
  unicode_get_sequence i <> unicode_get_sequence i'.
Proof.
  intros cp cp' i i' H H' Hn E. pose proof (runs_range _ _ _ _ H) as R. pose proof (runs_range _ _ _ _ H') as R'.
  pose proof total_small. apply seq_inj in E; [|lia|lia]. subst. apply Hn. eapply runs_inj; eauto.
Qed.
Theorem C37_shape : forall i, i < 46656 ->
  exists a b c, unicode_get_sequence i = [223; a; b; c] /\ In a alnum /\ In b alnum /\ In c alnum.
Proof.
  intros i H. rewrite compose_ok by auto. unfold compose_keys. do 3 eexists. split; [reflexivity|].
  assert (X : forall n, n < 36 -> In (nth (N.to_nat n) alnum 0) alnum).
  { intros n Hn. apply nth_In. cbn [length alnum]. lia. }
  repeat split; apply X.
  - apply N.div_lt_upper_bound; lia.
  - apply N.mod_lt; lia.
  - apply N.mod_lt; lia.
Qed.
Example C37_example : unicode_lookup_index 233 = Some 105 /\ unicode_get_sequence 105 = [223; 11; 3; 45]
  /\ unicode_lookup_index 8364 = Some 7390 /\ unicode_get_sequence 7390 = [223; 6; 25; 30].
Proof. vm_compute. auto. Qed.

(* ---- C27 ------------------------------------------------------------------------- *)
(* Whatever text is parsed, the macro is a list of elements ... *)
Theorem C27_parsed : forall s m, macro_parse s = Ok (Some m) ->
  exists es, Forall in_range es /\ m = flat_map encode es.
Proof. exact macro_parse_encoded. Qed.
(* ... and executing it sends what the elements say, one after the other ... *)
Theorem C27_execute : forall es, Forall in_range es -> Forall plain_groups es ->
  macro_execute (flat_map encode es) 0 = flat_map says es.
Proof. exact macro_says. Qed.
(* ... with a macro sequence timeout, the same except for pauses. *)
Theorem C27_timeout : forall m t, key_events (macro_execute m t) = key_events (macro_execute m 0).
Proof. intros m t. apply timeout_only_pauses. Qed.
(* No key is left pressed that was not pressed before. *)
Theorem C27_released : forall es t c, Forall in_range es -> Forall plain_groups es ->
  after c (macro_execute (flat_map encode es) t) false = false.
Proof.
  intros es t c R P. rewrite <- after_events, C27_timeout, after_events, C27_execute by auto.
  destruct (all_released es c false); auto.
Qed.
(* The engine performs a macro of several steps by exactly these events, after
   adjusting the modifiers. *)
Lemma send_key_mods k c p : exists pre, k_out (send_key k c p) = pre ++ k_out k
  /\ Forall (fun e => exists p', e = OKey c p') pre.
Proof.
  unfold send_key. destruct (_ || _); [exists []; split; auto|].
  destruct (Bool.eqb _ _); [exists []; split; auto; now destruct p|].
  exists [OKey c p]. split; [now destruct p|]. constructor; eauto.
Qed.
Definition mod_event (e : oev) : Prop := exists mask c p, e = OKey c p /\ In (mask, c) modifiers.
Lemma send_mod k c p mask : In (mask, c) modifiers -> exists pre, k_out (send_key k c p) = pre ++ k_out k /\ Forall mod_event pre.
Proof.
  intros H. destruct (send_key_mods k c p) as [pre [E F]]. exists pre. split; auto.
  eapply Forall_impl; [|exact F]. intros e [p' ->]. exists mask, c, p'. auto.
Qed.
Lemma mods_trans k k1 k2 : (exists pre, k_out k1 = pre ++ k_out k /\ Forall mod_event pre) ->
  (exists pre, k_out k2 = pre ++ k_out k1 /\ Forall mod_event pre) -> exists pre, k_out k2 = pre ++ k_out k /\ Forall mod_event pre.
Proof. intros [a [A1 A2]] [b [B1 B2]]. exists (b ++ a). rewrite B1, A1, app_assoc. split; auto. now apply Forall_app. Qed.
Lemma update_mods_events inh k e m : exists pre, k_out (update_mods inh k e m) = pre ++ k_out k /\ Forall mod_event pre.
Proof.
  unfold update_mods, set_mods. generalize (active_mods k e m). intros mods.
  assert (G : forall l k0, (forall x, In x l -> In x modifiers) ->
    exists pre, k_out (fold_left (set_mod1 inh mods) l k0) = pre ++ k_out k0 /\ Forall mod_event pre).
  { induction l as [|[mask c] l IH]; intros k0 Hl; [exists []; split; auto|]. cbn [fold_left].
    pose proof (Hl _ (or_introl eq_refl)) as Hc.
    eapply mods_trans; [|apply IH; intros x X; apply Hl; now right].
    unfold set_mod1. destruct (hasmod mask mods), (k_ks k0 c); try (exists []; split; now auto); try (eapply send_mod; eauto).
    unfold clear_mod. destruct (_ && negb (k_ks k0 K_LEFTCTRL)); [|eapply send_mod; eauto].
    assert (Hctl : In (MOD_CTRL, K_LEFTCTRL) modifiers) by (cbn; auto 10).
    eapply mods_trans; [eapply mods_trans|]; eapply send_mod; eauto. }
  apply G. auto.
Qed.
Theorem C27_engine : forall k dl m, multi_step m ->
  exists pre, k_out (execute_macro k dl m)
              = rev (macro_execute m (c_macro_seq_timeout (k_cfg k))) ++ pre ++ k_out k
    /\ Forall mod_event pre.
Proof.
  intros k dl m H. destruct (update_mods_events false k (Some dl) 0) as [pre [E F]]. exists pre. split; auto.
  rewrite <- E. unfold execute_macro. destruct m as [|[[] data] [|e2 m]]; try reflexivity.
  exfalso. apply H. now exists data.
Qed.
(* A pause inside a group is released as if it were a key: a+100ms+b releases key 100. *)
Theorem C27_pause_in_group_refuted :
  exists m, macro_parse (bs "a+100ms+b") = Ok (Some m)
    /\ macro_execute m 0 = [down 30; OSleep 100000; down 48; up 30; up 100; up 48].
Proof.
  exists [mkM MHold 30; mkM MTimeout 100; mkM MHold 48; mkM MRelease 0]. split; vm_compute; reflexivity.
Qed.
(* The character at the start of the compose table is not typed at all. *)
Theorem C27_first_char_refuted :
  exists cp, unicode_lookup_index cp = Some 0 /\ macro_parse (bs "x1" ++ utf8 cp) = macro_parse (bs "x1").
Proof. exists 128. vm_compute. auto. Qed.
Example C27_example :
  exists m es, macro_parse (bs "C-S-x leftshift+a 20ms hi") = Ok (Some m) /\ m = flat_map encode es
    /\ Forall in_range es /\ Forall plain_groups es
    /\ macro_execute m 0 = [down 42; down 29; down 45; up 45; up 42; up 29; down 42; down 30; up 42; up 30; OSleep 20000;
         down 35; up 35; down 23; up 23].
Proof.
  set (es := [EKey 12 45; EGroup [GKey 42; GKey 30]; EPause 20; EKey 0 35; EKey 0 23]).
  exists (flat_map encode es), es.
  split; [vm_compute; reflexivity|]. split; [reflexivity|].
  split; [repeat constructor|]. split; [repeat constructor|]. vm_compute. reflexivity.
Qed.

(* ---- C38 ------------------------------------------------------------------------- *)
(* A macro given as words of literal text types them character by character (blanks
   only separate words). *)
Theorem C38_types_text : forall ws, Forall literal ws -> (length (concat ws) <= 256)%nat ->
  exists m, macro_parse (sentence ws) = Ok (Some m) /\ typed (concat ws) (macro_execute m 0).
Proof.
  intros ws F L. unfold macro_parse. rewrite tokens_sentence.
  - destruct (literal_tokens ws F [] L) as [es [o [E1 [E2 [E3 E4]]]]]. exists es. split; [exact E1|].
    specialize (E4 []). rewrite app_nil_r in E4. unfold macro_execute. rewrite E4. cbn [mexec]. now rewrite app_nil_r.
  - eapply Forall_impl; [|exact F]. intros w [W1 [W2 _]]. split; auto. intros X. rewrite Forall_forall in W2.
    destruct (W2 _ X). lia.
Qed.
(* each printable character is on exactly one key of the US keyboard *)
Theorem C38_key_unique : forall c code sh code' sh', visible c ->
  us_key c code sh -> us_key c code' sh' -> code = code' /\ sh = sh'.
Proof.
  assert (X : forall c code sh, visible c -> us_key c code sh -> us_find us_rows c = Some (code, sh)).
  { intros c code sh V [f [p [s [i [H1 [H2 [-> H4]]]]]]].
    assert (Y : forallb (fun '(f, p, s) => forallb (fun i =>
        match us_find us_rows (nth i p 0), us_find us_rows (nth i s 0) with
        | Some (c1, b1), Some (c2, b2) => (c1 =? f + N.of_nat i) && negb b1 && (c2 =? f + N.of_nat i) && b2
        | _, _ => false end) (seq 0 (length p))) us_rows = true) by (vm_compute; reflexivity).
    rewrite forallb_forall in Y. specialize (Y _ H1). cbv beta iota in Y. rewrite forallb_forall in Y.
    specialize (Y i ltac:(apply in_seq; lia)). destruct (us_find us_rows (nth i p 0)) as [[c1 b1]|] eqn:E1; [|discriminate].
    destruct (us_find us_rows (nth i s 0)) as [[c2 b2]|] eqn:E2; [|discriminate].
    rewrite !andb_true_iff, !N.eqb_eq, negb_true_iff in Y. destruct Y as [[[-> ->] ->] ->]. destruct sh; congruence. }
  intros c code sh code' sh' V H H'. apply X in H; auto. apply X in H'; auto. rewrite H in H'. now injection H'.
Qed.
Lemma key_notation_parses w : w <> [] -> key_notation w -> parse_key_sequence w <> None.
Proof.
  intros Hw [ls [nm [c [-> [F H]]]]] N. destruct (letters_denote ls F) as [m Hm].
  destruct nm as [|x nm].
  - assert (S : strip_mods 0 (dashed ls ++ []) = Some (m, [])).
    { apply (strip_dashed ls 0 [] [] m denotes_nil Hm). discriminate. }
    unfold parse_key_sequence in N. destruct (dashed ls ++ []); [congruence|]. rewrite S, scan_mods in N. vm_compute in N. discriminate.
  - destruct H as [H|[H|H]].
    + rewrite (C34_name c (x :: nm) ls m) in N; auto; discriminate.
    + rewrite (C34_alt_name c (x :: nm) ls m) in N; auto; discriminate.
    + destruct (letters_denote (ls ++ [83])) as [m' Hm'].
      * apply Forall_app. split; auto. constructor; auto. exists 2. constructor.
      * rewrite (C34_shifted_name c (x :: nm) ls m') in N; auto; discriminate.
Qed.
Lemma literal_check w : w <> [] -> forallb (fun c => (33 <=? c) && (c <=? 126)) w = true -> parse_key_sequence w = None ->
  last w 0 <> 115 -> has_char 43 w = false -> literal w.
Proof.
  intros H1 H2 H3 H4 H5. split; auto. split; [|split; [|split]].
  - apply Forall_forall. intros c Hc. rewrite forallb_forall in H2. specialize (H2 c Hc).
    apply andb_true_iff in H2 as [A B]. apply N.leb_le in A. apply N.leb_le in B. split; auto.
  - intros K. now apply key_notation_parses in K.
  - intros [ds [_ [_ ->]]]. apply H4. change (bs "ms") with ([109] ++ [115]). rewrite app_assoc. apply last_last.
  - intros X. unfold has_char in H5. assert (existsb (N.eqb 43) w = true) by (apply existsb_exists; exists 43; auto). congruence.
Qed.
Example C38_example : Forall literal [bs "Hello"; bs "World!"] /\ sentence [bs "Hello"; bs "World!"] = bs "Hello World!"
  /\ match macro_parse (bs "Hello World!") with Ok (Some m) => length (macro_execute m 0) = 28%nat | _ => False end.
Proof.
  split; [|split; vm_compute; reflexivity].
  apply Forall_cons; [|apply Forall_cons; [|apply Forall_nil]]; apply literal_check; try (vm_compute; reflexivity); vm_compute; discriminate.
Qed.

Definition C27_all := (C27_parsed, C27_execute, C27_timeout, C27_released, C27_engine, C27_pause_in_group_refuted,
  C27_first_char_refuted, C34_name, C34_alt_name, C34_shifted_name, C34_only, C34_empty_name_refuted,
  C35_round_trip, C35_language, C35_order, C36_decode, C36_end, C36_strlen, C37_unambiguous, C37_shape,
  C38_types_text, C38_key_unique).
Print Assumptions C27_all.
