(* Proofs about macros (C27, C38). *)
From Coq Require Import String Lia.
From Verif Require Import Base KeyTable Keys Types Str UnicodeTable MacroParse MacroExec SpecNotation NotationProofs.
Local Open Scope N_scope.
Local Open Scope list_scope.
Local Notation length := List.length.

Lemma mods_filter mods : map snd (filter (fun mk => hasmod (fst mk) mods) modifiers) = keys_of_mods mods.
Proof.
  assert (H : forall b, hasmod (2 ^ b) mods = N.testbit mods b).
  { intros b. unfold hasmod. rewrite N.land_comm. destruct (N.testbit mods b) eqn:E.
    - destruct (N.eqb_spec (N.land mods (2 ^ b)) 0) as [X|X]; auto.
      assert (Y : N.testbit (N.land mods (2 ^ b)) b = false) by (rewrite X; apply N.bits_0).
      rewrite N.land_spec, E, N.pow2_bits_true in Y. discriminate.
    - replace (N.land mods (2 ^ b)) with 0; auto. symmetry. apply N.bits_inj_0. intros n. rewrite N.land_spec, N.pow2_bits_eqb.
      destruct (N.eqb_spec b n) as [->|]; [now rewrite E|apply andb_false_r]. }
  unfold keys_of_mods, modifiers, mod_keys. cbn [filter fst].
  rewrite <- (H 0), <- (H 1), <- (H 2), <- (H 3), <- (H 4).
  change (2 ^ 0) with MOD_ALT. change (2 ^ 4) with MOD_ALT_GR. change (2 ^ 2) with MOD_SHIFT.
  change (2 ^ 1) with MOD_SUPER. change (2 ^ 3) with MOD_CTRL.
  destruct (hasmod MOD_ALT mods), (hasmod MOD_ALT_GR mods), (hasmod MOD_SHIFT mods), (hasmod MOD_SUPER mods), (hasmod MOD_CTRL mods); reflexivity.
Qed.
Lemma keyseq_says mods code : mods < 256 -> code < 256 ->
  mexec_keyseq 0 (mods * 256 + code) = says (EKey mods code).
Proof.
  intros Hm Hc. unfold mexec_keyseq. cbn [says].
  assert (E1 : (mods * 256 + code) mod 256 = code).
  { rewrite N.add_comm, N.mod_add by lia. now apply N.mod_small. }
  assert (E2 : (mods * 256 + code) / 256 = mods).
  { rewrite N.div_add_l by lia. rewrite N.div_small by auto. lia. }
  rewrite E1, E2, (N.mod_small mods) by auto. rewrite andb_false_r. cbn [app]. rewrite <- mods_filter, !map_map. reflexivity.
Qed.
Lemma alnum_keys : alnum = b36_keys. Proof. reflexivity. Qed.
Lemma compose_ok idx : idx < 46656 -> unicode_get_sequence idx = compose_keys idx.
Proof.
  intros H. unfold unicode_get_sequence, compose_keys. rewrite alnum_keys. change (36 * 36) with 1296.
  rewrite (N.mod_small (idx / 1296)); [reflexivity|]. apply N.div_lt_upper_bound; lia.
Qed.
Lemma group_held gs : Forall (fun g => match g with GKey c => c < 256 | GPause _ => False end) gs -> forall es rest,
  mexec 0 (Some es) (map (fun g => match g with GKey c => mkM MHold c | GPause t => mkM MTimeout t end) gs ++ mkM MRelease 0 :: rest)
  = map (fun g => match g with GKey c => down c | GPause t => OSleep (t * 1000) end) gs
    ++ map (fun x => OKey (m_data x mod 256) false) es ++ map up (group_keys gs) ++ mexec 0 None rest.
Proof.
  induction 1 as [|g gs Hg F IH]; intros es rest; cbn [map app mexec m_type m_data Z.eqb negb group_keys flat_map].
  - reflexivity.
  - destruct g as [c|t]; [|contradiction]. cbn [m_type m_data mexec Z.eqb negb app]. rewrite IH.
    rewrite N.mod_small by auto. cbn [app]. f_equal. f_equal. rewrite map_app, <- !app_assoc. f_equal. cbn [map m_data app].
    rewrite N.mod_small by auto. reflexivity.
Qed.
Lemma group_says items : Forall (fun g => match g with GKey c => c < 256 | GPause t => t < 65536 end) items ->
  keys_then items -> forall rest,
  mexec 0 None (encode (EGroup items) ++ rest) = says (EGroup items) ++ mexec 0 None rest.
Proof.
  intros F K rest. cbn [encode says]. rewrite <- !app_assoc. cbn [app].
  induction items as [|g items IH]; cbn [map app mexec m_type m_data Z.eqb negb group_keys flat_map].
  - reflexivity.
  - inversion F; subst. destruct g as [c|t]; cbn [mexec m_type m_data Z.eqb negb app].
    + rewrite group_held.
      * rewrite N.mod_small by auto. cbn [map m_data app]. rewrite N.mod_small by auto. unfold down, up. f_equal.
      * cbn [keys_then] in K. inversion K; subst. rewrite Forall_forall in *. intros g Hg. specialize (H4 g Hg). specialize (H2 g Hg). destruct g; auto.
    + cbn [keys_then] in K. rewrite IH by auto. reflexivity.
Qed.
Lemma element_says e rest : in_range e -> plain_groups e ->
  mexec 0 None (encode e ++ rest) = says e ++ mexec 0 None rest.
Proof.
  intros R P. destruct e as [mods code|items|idx|ms].
  - destruct R as [R1 R2]. cbn [encode app mexec m_type m_data Z.eqb negb]. rewrite keyseq_says by lia. reflexivity.
  - apply group_says; auto.
  - cbn [encode app mexec m_type m_data Z.eqb negb says]. rewrite compose_ok by (apply R). reflexivity.
  - reflexivity.
Qed.
Lemma macro_says es : Forall in_range es -> Forall plain_groups es ->
  macro_execute (flat_map encode es) 0 = flat_map says es.
Proof.
  unfold macro_execute. induction es as [|e es IH]; intros R P; cbn [flat_map]; auto.
  inversion R; inversion P; subst. rewrite element_says by auto. f_equal. auto.
Qed.
Lemma key_events_app a b : key_events (a ++ b) = key_events a ++ key_events b.
Proof. apply filter_app. Qed.
Lemma timeout_only_pauses m : forall t held, key_events (mexec t held m) = key_events (mexec 0 held m).
Proof.
  induction m as [|e m IH]; intros t held; cbn [mexec]; auto. rewrite !key_events_app, IH.
  assert (S : forall x, key_events (if negb (x =? 0)%Z then [sleep_of x] else []) = []) by (intros x; now destruct (x =? 0)%Z).
  rewrite !S. f_equal. destruct (m_type e); auto. unfold mexec_keyseq. rewrite !key_events_app.
  f_equal. f_equal. now destruct (negb (_ mod 256 =? 0)), (t =? 0)%Z.
Qed.

(* ---- balance ------------------------------------------------------------------------ *)
Lemma after_app c a b x : after c (a ++ b) x = after c b (after c a x).
Proof. unfold after. apply fold_left_app. Qed.
Lemma after_events c o : forall x, after c (key_events o) x = after c o x.
Proof.
  unfold after, key_events. induction o as [|e o IH]; intros x; auto. cbn [filter fold_left].
  destruct e; cbn [fold_left]; auto.
Qed.
Lemma after_ups c ks x : after c (map up ks) x = if existsb (N.eqb c) ks then false else x.
Proof.
  revert x. induction ks as [|k ks IH]; intros x; auto. cbn [map]. change (after c (map up ks) (if k =? c then false else x) = if existsb (N.eqb c) (k :: ks) then false else x).
  rewrite IH. cbn [existsb]. rewrite (N.eqb_sym c k). destruct (k =? c), (existsb (N.eqb c) ks); auto.
Qed.
Lemma after_downs c ks x : existsb (N.eqb c) ks = false -> after c (map down ks) x = x.
Proof.
  revert x. induction ks as [|k ks IH]; intros x H; auto. cbn [existsb] in H. apply orb_false_iff in H as [H1 H2].
  change (after c (map down ks) (if k =? c then true else x) = x). rewrite N.eqb_sym, H1. auto.
Qed.
Lemma after_strokes c ks x : after c (flat_map (fun c0 => [down c0; up c0]) ks) x = if existsb (N.eqb c) ks then false else x.
Proof.
  revert x. induction ks as [|k ks IH]; intros x; auto. cbn [flat_map]. rewrite after_app, IH. cbn [existsb after fold_left down up].
  rewrite (N.eqb_sym c k). destruct (k =? c), (existsb (N.eqb c) ks); auto.
Qed.
Lemma after_group c items x : existsb (N.eqb c) (group_keys items) = false ->
  after c (map (fun g => match g with GKey c => down c | GPause t => OSleep (t * 1000) end) items) x = x.
Proof.
  revert x. induction items as [|g items IH]; intros x H; auto. destruct g as [k|t]; cbn [group_keys flat_map app existsb] in H.
  - apply orb_false_iff in H as [H1 H2]. cbn [map]. change (after c (map (fun g => match g with GKey c => down c | GPause t => OSleep (t * 1000) end) items) (if k =? c then true else x) = x).
    rewrite N.eqb_sym, H1. auto.
  - cbn [map]. apply IH, H.
Qed.
Lemma says_released e c x : after c (says e) x = false \/ after c (says e) x = x.
Proof.
  destruct e as [mods code|items|idx|ms]; cbn [says].
  - rewrite !after_app, after_ups. destruct (existsb (N.eqb c) (keys_of_mods mods)) eqn:E; auto.
    rewrite after_downs by auto. cbn [after fold_left down up]. destruct (code =? c); auto.
  - rewrite after_app, after_ups. destruct (existsb _ _) eqn:E; auto. rewrite after_group by auto. auto.
  - rewrite after_strokes. destruct (existsb _ _); auto.
  - right. reflexivity.
Qed.
Lemma all_released es c : forall x, after c (flat_map says es) x = false \/ after c (flat_map says es) x = x.
Proof.
  induction es as [|e es IH]; intros x; cbn [flat_map]; [right; reflexivity|]. rewrite after_app.
  destruct (says_released e c x) as [-> | ->]; auto. destruct (IH false); auto.
Qed.

(* ---- what macro_parse produces ------------------------------------------------------- *)
Lemma table_length : length keycode_table = 256%nat. Proof. vm_compute. reflexivity. Qed.
Lemma denotes_lt ls m : denotes ls m -> m < 32.
Proof.
  intros [F H]. destruct (N.eq_dec m 0) as [->|Hz]; [lia|]. destruct (N.lt_ge_cases m 32) as [L|L]; auto. exfalso.
  assert (X : 5 <= N.log2 m) by (change 5 with (N.log2 32); now apply N.log2_le_mono).
  pose proof (N.bit_log2 m Hz) as B. apply H in B as [l [_ B]]. apply letter_lt in B. lia.
Qed.
Lemma lor4_lt m : m < 32 -> N.lor m 4 < 32.
Proof.
  intros H. destruct (N.eq_dec (N.lor m 4) 0) as [->|Hz]; [lia|].
  change 32 with (2 ^ 5). apply N.log2_lt_pow2; [lia|]. rewrite N.log2_lor.
  assert (N.log2 m < 5); [|change (N.log2 4) with 2; lia]. destruct (N.eq_dec m 0) as [->|]; [cbn; lia|].
  apply N.log2_lt_pow2; [lia|]. exact H.
Qed.
Lemma parse_seq_range s c m : parse_key_sequence s = Some (c, m) -> c < 256 /\ m < 32.
Proof.
  unfold parse_key_sequence. destruct s as [|x r]; [discriminate|].
  destruct (strip_mods 0 (x :: r)) as [[m0 nm]|] eqn:E; [|discriminate]. intros H.
  apply (strip_ok (length (x :: r)) 0 []) in E as [ls [D _]]; [|lia|apply denotes_nil]. cbn [app] in D.
  apply denotes_lt in D. apply scan_ok in H as [j [n [al [sh [-> [Hj Hm]]]]]].
  assert (j < length keycode_table)%nat by (apply nth_error_Some; congruence). rewrite table_length in H.
  split; [lia|]. destruct Hm as [[_ ->]|[_ ->]]; auto using lor4_lt.
Qed.
Lemma seq_data c m : c < 256 -> m < 32 -> N.lor (N.shiftl m 8) c mod 65536 = m * 256 + c.
Proof. intros Hc Hm. rewrite lor_add by exact Hc. change (2 ^ 8) with 256. apply N.mod_small. lia. Qed.
Lemma add_entry_ok m t d m' : add_entry m t d = Some m' -> m' = m ++ [mkM t (d mod 65536)].
Proof. unfold add_entry. destruct (Nat.ltb _ _); [|discriminate]. intros H. now injection H as <-. Qed.
Lemma timeval_lt s : timeval_data s < 65536.
Proof. unfold timeval_data. pose proof (Z.mod_pos_bound (atoi s) 65536 ltac:(lia)). lia. Qed.
Lemma parse_group_ok ks : forall m m', parse_group ks m = Some m' ->
  exists items, in_range (EGroup items) /\ m' = m ++ encode (EGroup items).
Proof.
  induction ks as [|k ks IH]; intros m m' H; cbn [parse_group] in H.
  - apply add_entry_ok in H. subst. exists []. split; [constructor|reflexivity].
  - destruct (is_timeval k).
    + destruct (add_entry m MTimeout _) as [m1|] eqn:E; [|discriminate]. apply add_entry_ok in E. subst m1.
      apply IH in H as [items [R ->]]. exists (GPause (timeval_data k) :: items). split.
      * constructor; auto. apply timeval_lt.
      * rewrite N.mod_small by apply timeval_lt. cbn [encode map]. now rewrite <- app_assoc.
    + destruct (parse_key_sequence k) as [[c mm]|] eqn:Ek; [|discriminate].
      apply parse_seq_range in Ek as [Hc _].
      destruct (add_entry m MHold _) as [m1|] eqn:E; [|discriminate]. apply add_entry_ok in E. subst m1.
      apply IH in H as [items [R ->]]. exists (GKey c :: items). split.
      * constructor; auto.
      * rewrite N.mod_small by lia. cbn [encode map]. now rewrite <- app_assoc.
Qed.
Lemma ascii_key_ok tbl : forall i c d, ascii_key tbl i c = Some d ->
  exists j, i <= j < i + N.of_nat (length tbl) /\ (d = j \/ d = N.lor (N.shiftl MOD_SHIFT 8) j).
Proof.
  induction tbl as [|[[nm al] sh] tbl IH]; intros i c d H; cbn [ascii_key length] in *; [discriminate|].
  destruct (is_char nm c); [injection H as <-; exists i; split; [lia|auto]|].
  destruct (is_char sh c); [injection H as <-; exists i; split; [lia|auto]|].
  apply IH in H as [j [A B]]. exists j. split; [lia|auto].
Qed.
Definition encoded (m m' : macro) : Prop := exists es, Forall in_range es /\ m' = m ++ flat_map encode es.
Lemma encoded_refl m : encoded m m. Proof. exists []. split; auto. now rewrite app_nil_r. Qed.
Lemma encoded_trans a b c : encoded a b -> encoded b c -> encoded a c.
Proof.
  intros [e1 [A ->]] [e2 [B ->]]. exists (e1 ++ e2). split; [now apply Forall_app|]. now rewrite flat_map_app, app_assoc.
Qed.
Lemma encoded_one m e : in_range e -> encoded m (m ++ encode e).
Proof. intros H. exists [e]. split; auto. cbn [flat_map]. now rewrite app_nil_r. Qed.
Lemma parse_text_ok fuel : forall tok m m', parse_text fuel tok m = Ok (Some m') -> encoded m m'.
Proof.
  induction fuel as [|fuel IH]; intros tok m m' H; cbn [parse_text] in H.
  - injection H as <-. apply encoded_refl.
  - destruct (utf8_read_char tok) as [[sz cp]| | |] eqn:E; cbn [bind] in H; try discriminate.
    destruct sz as [|sz]; [injection H as <-; apply encoded_refl|].
    match type of H with match ?n with _ => _ end = _ => destruct n as [m1|] eqn:En; [|discriminate] end.
    eapply encoded_trans; [|eapply IH, H].
    destruct (_ && _).
    + destruct (ascii_key keycode_table 0 (ch tok 0)) as [d|] eqn:Ea; [|injection En as <-; apply encoded_refl].
      apply ascii_key_ok in Ea as [j [Hj Hd]]. rewrite table_length in Hj. apply add_entry_ok in En. subst m1.
      destruct Hd as [-> | ->].
      * rewrite N.mod_small by lia. apply (encoded_one m (EKey 0 j)). split; lia.
      * change (N.shiftl MOD_SHIFT 8) with (N.shiftl 4 8). rewrite seq_data by lia. apply (encoded_one m (EKey 4 j)). split; lia.
    + destruct (unicode_lookup_index cp) as [x|] eqn:Eu; [|injection En as <-; apply encoded_refl].
      destruct (N.ltb_spec 0 x); [|injection En as <-; apply encoded_refl].
      apply add_entry_ok in En. subst m1. unfold unicode_lookup_index in Eu. apply runs_range in Eu.
      pose proof total_small. rewrite N.mod_small by lia. apply (encoded_one m (EChar x)). split; lia.
Qed.
Lemma parse_token_ok tok m m' : parse_token tok m = Ok (Some m') -> encoded m m'.
Proof.
  unfold parse_token. destruct (parse_key_sequence tok) as [[c mm]|] eqn:E.
  - apply parse_seq_range in E as [H1 H2]. intros H. injection H as H. apply add_entry_ok in H. subst.
    rewrite seq_data by auto. apply (encoded_one m (EKey mm c)). now split.
  - destruct (has_char 43 tok).
    + intros H. injection H as H. apply parse_group_ok in H as [items [R ->]]. now apply encoded_one.
    + destruct (is_timeval tok); [|apply parse_text_ok].
      intros H. injection H as H. apply add_entry_ok in H. subst. rewrite N.mod_small by apply timeval_lt.
      apply (encoded_one m (EPause (timeval_data tok))). apply timeval_lt.
Qed.
Lemma parse_tokens_ok toks : forall m m', parse_tokens toks m = Ok (Some m') -> encoded m m'.
Proof.
  induction toks as [|t toks IH]; intros m m' H; cbn [parse_tokens] in H.
  - injection H as <-. apply encoded_refl.
  - destruct (parse_token t m) as [[m1|]| | |] eqn:E; cbn [bind] in H; try discriminate.
    eapply encoded_trans; [eapply parse_token_ok, E|eauto].
Qed.
Lemma macro_parse_encoded s m : macro_parse s = Ok (Some m) -> exists es, Forall in_range es /\ m = flat_map encode es.
Proof. intros H. apply parse_tokens_ok in H. exact H. Qed.

(* ---- typed text --------------------------------------------------------------------- *)
Fixpoint pos_of (c : N) (s : str) (i : nat) : option nat :=
  match s with [] => None | x :: r => if x =? c then Some i else pos_of c r (S i) end.
Lemma pos_of_ok c s : forall i j, pos_of c s i = Some j -> (i <= j < i + length s)%nat /\ nth (j - i) s 0 = c.
Proof.
  induction s as [|x s IH]; intros i j H; cbn [pos_of length] in *; [discriminate|].
  destruct (N.eqb_spec x c) as [->|].
  - injection H as <-. split; [lia|]. now rewrite Nat.sub_diag.
  - apply IH in H as [A B]. split; [lia|]. replace (j - i)%nat with (S (j - S i)) by lia. exact B.
Qed.
Fixpoint us_find (rows : list (N * str * str)) (c : N) : option (N * bool) :=
  match rows with
  | [] => None
  | (first, plain, shifted) :: r =>
      match pos_of c plain 0, pos_of c shifted 0 with
      | Some i, _ => Some (first + N.of_nat i, false)
      | None, Some i => Some (first + N.of_nat i, true)
      | _, _ => us_find r c
      end
  end.
Lemma us_find_ok c code sh : us_find us_rows c = Some (code, sh) -> us_key c code sh.
Proof.
  assert (L : forall f p s, In (f, p, s) us_rows -> length s = length p).
  { intros f p s H. unfold us_rows in H. cbn [In] in H. repeat destruct H as [H|H]; try (injection H as <- <- <-; reflexivity). contradiction. }
  assert (G : forall rows, (forall r, In r rows -> In r us_rows) -> us_find rows c = Some (code, sh) -> us_key c code sh).
  { induction rows as [|[[f p] s] rows IH]; intros Hr H; cbn [us_find] in H; [discriminate|].
    pose proof (Hr _ (or_introl eq_refl)) as Hin.
    destruct (pos_of c p 0) as [i|] eqn:E1.
    - injection H as <- <-. apply pos_of_ok in E1 as [A B]. rewrite Nat.sub_0_r in B. exists f, p, s, i. repeat split; auto. lia.
    - destruct (pos_of c s 0) as [i|] eqn:E2.
      + injection H as <- <-. apply pos_of_ok in E2 as [A B]. rewrite Nat.sub_0_r in B. exists f, p, s, i. repeat split; auto.
        rewrite <- (L _ _ _ Hin). lia.
      + apply IH; auto. intros r X. apply Hr. now right. }
  apply G. auto.
Qed.
Definition char_data (p : N * bool) : N := (if snd p then 4 * 256 else 0) + fst p.
Lemma ascii_us c : visible c -> exists p, us_find us_rows c = Some p /\ fst p < 256
  /\ ascii_key keycode_table 0 c = Some (char_data p).
Proof.
  intros [H1 H2].
  assert (X : forallb (fun c => match us_find us_rows c with
                     | Some p => (fst p <? 256) && match ascii_key keycode_table 0 c with Some d => d =? char_data p | None => false end
                     | None => false end) (map N.of_nat (seq 33 94)) = true) by (vm_compute; reflexivity).
  rewrite forallb_forall in X. specialize (X c).
  assert (I : In c (map N.of_nat (seq 33 94))).
  { apply in_map_iff. exists (N.to_nat c). split; [lia|]. apply in_seq. lia. }
  specialize (X I). destruct (us_find us_rows c) as [p|]; [|discriminate]. exists p. split; auto.
  apply andb_true_iff in X as [X1 X2]. apply N.ltb_lt in X1. split; auto.
  destruct (ascii_key _ _ _) as [d|]; [|discriminate]. apply N.eqb_eq in X2. now subst.
Qed.
Lemma char_strokes p : fst p < 256 -> mexec_keyseq 0 (char_data p) = strokes (fst p) (snd p).
Proof.
  intros H. destruct p as [code [|]]; cbn [snd fst] in *.
  - change (char_data (code, true)) with (4 * 256 + code). rewrite keyseq_says by lia. reflexivity.
  - change (char_data (code, false)) with (0 * 256 + code). rewrite keyseq_says by lia. reflexivity.
Qed.
Lemma text_types fuel : forall w m, Forall visible w -> (length w < fuel)%nat -> (length m + length w <= 256)%nat ->
  exists es o, parse_text fuel w m = Ok (Some (m ++ es)) /\ length es = length w /\ typed w o
    /\ forall rest, mexec 0 None (es ++ rest) = o ++ mexec 0 None rest.
Proof.
  induction fuel as [|fuel IH]; intros w m F Hf Hl; [lia|]. destruct w as [|c w].
  - exists [], []. cbn [parse_text utf8_read_char bind]. rewrite app_nil_r. repeat split; auto. constructor.
  - inversion F; subst. destruct (ascii_us c H1) as [p [P1 [P2 P3]]]. destruct H1 as [V1 V2].
    cbn [parse_text]. unfold utf8_read_char. destruct (N.leb_spec 240 c); [lia|]. destruct (N.leb_spec 224 c); [lia|].
    destruct (N.leb_spec 192 c); [lia|]. cbn [bind].
    replace (N.land c 127) with c by (change 127 with (2 ^ 7 - 1); rewrite land_mod, N.mod_small; [reflexivity|cbn; lia]).
    cbn [Nat.eqb andb]. destruct (N.ltb_spec c 128); [|lia]. unfold ch at 1. cbn [nth]. rewrite P3.
    unfold add_entry. cbn [length] in *. destruct (Nat.ltb_spec (length m) 256); [|lia].
    assert (Hd : char_data p mod 65536 = char_data p).
    { apply N.mod_small. unfold char_data. destruct (snd p); lia. }
    rewrite Hd. cbn [skipn].
    destruct (IH w (m ++ [mkM MKeySeq (char_data p)]) H2 ltac:(lia)) as [es [o [E1 [E2 [E3 E4]]]]].
    { rewrite app_length. cbn [length]. lia. }
    exists (mkM MKeySeq (char_data p) :: es), (strokes (fst p) (snd p) ++ o). split; [|split; [|split]].
    + rewrite E1. now rewrite <- app_assoc.
    + cbn [length]. now rewrite E2.
    + constructor; auto. apply us_find_ok. rewrite P1. now destruct p.
    + intros rest. cbn [app mexec m_type m_data Z.eqb negb]. rewrite char_strokes by auto. rewrite E4. now rewrite <- app_assoc.
Qed.
Lemma pks_notation w c m : parse_key_sequence w = Some (c, m) -> key_notation w.
Proof.
  unfold parse_key_sequence. destruct w as [|x r]; [discriminate|].
  destruct (strip_mods 0 (x :: r)) as [[m0 nm]|] eqn:E; [|discriminate]. intros H.
  apply (strip_ok (length (x :: r)) 0 []) in E as [ls [D Ew]]; [|lia|apply denotes_nil]. cbn [app] in D.
  apply scan_ok in H as [j [n [al [sh [-> [Hj Hm]]]]]].
  exists ls, nm, (N.of_nat j). split; auto. split; [apply D|].
  unfold name_of, alt_name_of, shifted_name_of, row. rewrite Nat2N.id.
  rewrite (nth_error_nth _ _ _ Hj). cbn [fst snd]. destruct Hm as [[-> _]|[[-> | ->] _]]; auto.
Qed.
Lemma skip_digits_split s : exists ds, s = ds ++ skip_digits s /\ Forall (fun c => 48 <= c <= 57) ds
  /\ (is_digit (ch s 0) = true -> ds <> []).
Proof.
  induction s as [|c s [ds [E [F _]]]]; cbn [skip_digits].
  - exists []. repeat split; auto. discriminate.
  - destruct (is_digit c) eqn:D.
    + exists (c :: ds). cbn [app]. split; [now rewrite <- E|]. split; [|intros _; congruence].
      constructor; auto. unfold is_digit in D. apply andb_true_iff in D as [D1 D2]. apply N.leb_le in D1. apply N.leb_le in D2. lia.
    + exists []. split; [reflexivity|]. split; [constructor|]. unfold ch. cbn [nth]. congruence.
Qed.
Lemma timeval_notation w : Forall visible w -> is_timeval w = true -> pause_notation w.
Proof.
  intros V H. unfold is_timeval in H. destruct (is_digit (ch w 0)) eqn:D; [|discriminate].
  destruct (skip_digits_split w) as [ds [E [F N]]]. specialize (N D). rewrite !andb_true_iff, orb_true_iff in H.
  destruct H as [[A B] C]. exists ds. split; auto. split; auto. rewrite E at 1. f_equal.
  assert (V' : Forall visible (skip_digits w)) by (rewrite E in V; now apply Forall_app in V).
  destruct (skip_digits w) as [|a [|b [|c r]]]; unfold ch in *; cbn [nth] in *; try discriminate.
  - apply N.eqb_eq in A. apply N.eqb_eq in B. now subst.
  - exfalso. apply Forall_inv_tail, Forall_inv_tail, Forall_inv in V' as [V1 V2].
    destruct C as [C|C]; apply N.eqb_eq in C; lia.
Qed.
Lemma literal_token w m : literal w -> (length m + length w <= 256)%nat ->
  exists es o, parse_token w m = Ok (Some (m ++ es)) /\ length es = length w /\ typed w o
    /\ forall rest, mexec 0 None (es ++ rest) = o ++ mexec 0 None rest.
Proof.
  intros [_ [V [K [P C]]]] Hl. unfold parse_token.
  destruct (parse_key_sequence w) as [[c mm]|] eqn:E; [exfalso; eapply K, pks_notation, E|].
  replace (has_char 43 w) with false.
  - destruct (is_timeval w) eqn:T; [exfalso; apply P, timeval_notation; auto|]. apply text_types; auto.
  - symmetry. destruct (has_char 43 w) eqn:X; auto. exfalso. apply C. unfold has_char in X. apply existsb_exists in X as [x [X1 X2]].
    apply N.eqb_eq in X2. now subst.
Qed.
Lemma tokens_word w : forall cur s, ~ In 32 w -> tokens_from 32 (w ++ s) cur = tokens_from 32 s (rev w ++ cur).
Proof.
  induction w as [|c w IH]; intros cur s H; auto. cbn [app tokens_from]. destruct (N.eqb_spec c 32) as [->|]; [exfalso; apply H; now left|].
  rewrite IH by (intros X; apply H; now right). cbn [rev]. now rewrite <- app_assoc.
Qed.
Lemma tokens_sentence ws : Forall (fun w => w <> [] /\ ~ In 32 w) ws -> tokens 32 (sentence ws) = ws.
Proof.
  unfold tokens. assert (Fin : forall w, w <> [] -> tokens_from 32 [] (rev w) = [w]).
  { intros w H. cbn [tokens_from]. destruct (rev w) eqn:E; [|now rewrite <- E, rev_involutive].
    exfalso. apply H. now rewrite <- (rev_involutive w), E. }
  induction 1 as [|w ws [H1 H2] F IH]; auto.
  destruct ws as [|w2 ws].
  - cbn [sentence]. rewrite <- (app_nil_r w) at 1. rewrite tokens_word by auto. rewrite app_nil_r. now apply Fin.
  - change (sentence (w :: w2 :: ws)) with (w ++ 32 :: sentence (w2 :: ws)). rewrite tokens_word by auto. rewrite app_nil_r.
    cbn [tokens_from N.eqb Pos.eqb]. destruct (rev w) as [|x l] eqn:E.
    + exfalso. apply H1. now rewrite <- (rev_involutive w), E.
    + rewrite <- E, rev_involutive. f_equal. exact IH.
Qed.
Lemma typed_app a b oa ob : typed a oa -> typed b ob -> typed (a ++ b) (oa ++ ob).
Proof. induction 1; intros Hb; cbn [app]; auto. rewrite <- app_assoc. constructor; auto. Qed.
Lemma literal_tokens ws : Forall literal ws -> forall m, (length m + length (concat ws) <= 256)%nat ->
  exists es o, parse_tokens ws m = Ok (Some (m ++ es)) /\ length es = length (concat ws) /\ typed (concat ws) o
    /\ forall rest, mexec 0 None (es ++ rest) = o ++ mexec 0 None rest.
Proof.
  induction 1 as [|w ws H F IH]; intros m Hl; cbn [parse_tokens concat] in *.
  - exists [], []. rewrite app_nil_r. repeat split; auto. constructor.
  - rewrite app_length in Hl. destruct (literal_token w m H ltac:(lia)) as [es [o [E1 [E2 [E3 E4]]]]].
    rewrite E1. cbn [bind]. destruct (IH (m ++ es)) as [es2 [o2 [G1 [G2 [G3 G4]]]]]; [rewrite app_length; lia|].
    exists (es ++ es2), (o ++ o2). rewrite G1, <- app_assoc. split; auto. rewrite !app_length, E2, G2. split; auto.
    split; [now apply typed_app|]. intros rest. rewrite <- !app_assoc. now rewrite E4, G4.
Qed.
