(* C63: the keys a parsed configuration mentions have names. *)
From Coq Require Import String.
From Verif Require Import Base Lib Types KeyTable Keys UnicodeTable MacroExec Str MacroParse Ini Config ParseWf SpecSource SourceProofs.
From Coq Require Import List.
Import ListNotations.
Local Open Scope list_scope.
Local Notation length := List.length.
Local Open Scope N_scope.

Definition anyr (x : N) : Prop := x < 256.
Notation cok := (c_from named_key named_key anyr).
Notation mok := (m_from named_key anyr).
Notation dok := (d_from named_key).

(* ---- the table --------------------------------------------------------------------- *)
Definition namedb (x : N) : bool :=
  match nth_error keycode_table (N.to_nat x) with Some (Some _, _, _) => true | _ => false end.
Lemma namedb_ok x : namedb x = true -> named_key x.
Proof.
  unfold namedb, named_key. destruct (nth_error _ _) as [[[[n|] a] s]|]; try discriminate. eauto.
Qed.
Definition row_named (tbl : list keyent) (x : N) : Prop :=
  exists n a s, nth_error tbl (N.to_nat x) = Some (Some n, a, s).
Lemma row_shift r tbl x i : row_named tbl (x - (i + 1)) -> i + 1 <= x -> row_named (r :: tbl) (x - i).
Proof.
  intros (n & a & s & E) H. exists n, a, s. replace (N.to_nat (x - i)) with (S (N.to_nat (x - (i + 1)))) by lia. exact E.
Qed.
Lemma row_first n a s tbl i : row_named ((Some n, a, s) :: tbl) (i - i).
Proof. exists n, a, s. now rewrite N.sub_diag. Qed.
Lemma scan_named : forall tbl i mods s c m, scan_table tbl i mods s = Some (c, m) -> i <= c /\ row_named tbl (c - i).
Proof.
  induction tbl as [|[[n a] sh] tbl IH]; intros i mods s c m H; cbn [scan_table] in H; [discriminate|].
  assert (G : scan_table tbl (i + 1) mods s = Some (c, m) -> i <= c /\ row_named ((n, a, sh) :: tbl) (c - i)).
  { intros X. apply IH in X as [X1 X2]. split; [lia|]. now apply row_shift. }
  destruct n as [n|]; auto.
  destruct (opt_str_is sh s); [injection H as <- _; split; [lia|apply row_first]|].
  destruct (_ || _); auto. injection H as <- _. split; [lia|apply row_first].
Qed.
Lemma lookup_named : forall tbl i s, lookup_keycode_from tbl i s <> 0 ->
  i <= lookup_keycode_from tbl i s /\ row_named tbl (lookup_keycode_from tbl i s - i).
Proof.
  induction tbl as [|[[n a] sh] tbl IH]; intros i s H; cbn [lookup_keycode_from] in *; [congruence|].
  assert (G : lookup_keycode_from tbl (i + 1) s <> 0 ->
    i <= lookup_keycode_from tbl (i + 1) s /\ row_named ((n, a, sh) :: tbl) (lookup_keycode_from tbl (i + 1) s - i)).
  { intros X. apply IH in X as [X1 X2]. split; [lia|]. now apply row_shift. }
  destruct n as [n|]; auto. destruct (_ || _); auto. split; [lia|apply row_first].
Qed.
Lemma table_named x : row_named keycode_table (x - 0) -> named_key x.
Proof. rewrite N.sub_0_r. exact (fun H => H). Qed.
Lemma lookup_key s : lookup_keycode s <> 0 -> named_key (lookup_keycode s).
Proof. intros H. apply table_named. now apply lookup_named in H. Qed.
Lemma keyseq_named s c m : parse_key_sequence s = Some (c, m) -> named_key c.
Proof.
  unfold parse_key_sequence. destruct s; [discriminate|]. destruct (strip_mods _ _) as [[? ?]|]; [|discriminate].
  intros H. apply scan_named in H as [_ H]. now apply table_named.
Qed.
Lemma named_low x : named_key x -> x < 256.
Proof.
  intros (n & a & s & E). assert (H : (N.to_nat x < length keycode_table)%nat) by (apply nth_error_Some; congruence).
  assert (L : length keycode_table = 256%nat) by (vm_compute; reflexivity). lia.
Qed.
Definition shifted_named (r : keyent) : bool :=
  match r with (None, _, Some _) => false | _ => true end.
Lemma ascii_named : forall tbl i c d, forallb shifted_named tbl = true -> ascii_key tbl i c = Some d ->
  exists x, i <= x /\ row_named tbl (x - i) /\ (d = x \/ d = N.lor (N.shiftl MOD_SHIFT 8) x).
Proof.
  induction tbl as [|[[n a] sh] tbl IH]; intros i c d Hf H; cbn [ascii_key forallb] in *; [discriminate|].
  apply andb_true_iff in Hf as [Hr Hf].
  destruct (is_char n c) eqn:E1.
  { injection H as <-. destruct n as [n|]; [|discriminate]. exists i. split; [lia|]. split; [apply row_first|auto]. }
  destruct (is_char sh c) eqn:E2.
  { injection H as <-. destruct sh as [sh|]; [|discriminate]. destruct n as [n|]; [|discriminate].
    exists i. split; [lia|]. split; [apply row_first|auto]. }
  apply IH in H as (x & X1 & X2 & X3); auto. exists x. split; [lia|]. split; [now apply row_shift|auto].
Qed.
Lemma low_lor a x : x < 256 -> N.lor (N.shiftl a 8) x mod 256 = x.
Proof.
  intros H. change 256 with (2 ^ 8). rewrite <- N.land_ones. rewrite N.land_lor_distr_l, !N.land_ones.
  rewrite N.shiftl_mul_pow2, N.mod_mul by discriminate. apply N.mod_small. exact H.
Qed.
Lemma low_16 x : x mod 65536 mod 256 = x mod 256.
Proof. replace 65536 with (256 * 256) by reflexivity. rewrite N.mod_mul_r by discriminate.
  rewrite N.mul_comm, N.mod_add by discriminate. apply N.mod_mod. discriminate. Qed.

(* ---- macros ------------------------------------------------------------------------ *)
Lemma mok_add m t d m' : mok m -> add_entry m t d = Some m' ->
  (forall x, step_presses (mkM t (d mod 65536)) x -> named_key x) -> mok m'.
Proof.
  intros Hm H He. unfold add_entry in H. destruct (Nat.ltb _ _); [|discriminate]. injection H as <-.
  intros e Hin. apply in_app_iff in Hin as [Hin|[<-|[]]]; auto. split; [exact He|]. apply N.mod_lt. discriminate.
Qed.
Lemma unicode_named i x : In x (unicode_get_sequence i) -> named_key x.
Proof.
  assert (G : forall j, j < 36 -> named_key (nth (N.to_nat j) b36_keys 0)).
  { intros j Hj. apply namedb_ok.
    assert (A : forallb namedb b36_keys = true) by (vm_compute; reflexivity).
    rewrite forallb_forall in A. apply A. apply nth_In. change (length b36_keys) with 36%nat. lia. }
  unfold unicode_get_sequence. cbn [In]. intros [<-|[<-|[<-|[<-|[]]]]].
  - apply namedb_ok. vm_compute. reflexivity.
  - apply G. now apply N.mod_lt.
  - apply G. now apply N.mod_lt.
  - apply G. now apply N.mod_lt.
Qed.
Lemma group_mok : forall keys m m', mok m -> parse_group keys m = Some m' -> mok m'.
Proof.
  induction keys as [|k keys IH]; intros m m' Hm H; cbn [parse_group] in H.
  - eapply mok_add; [exact Hm|exact H|]. intros x [].
  - destruct (is_timeval k).
    + destruct (add_entry _ _ _) eqn:E; [|discriminate]. eapply IH; [|exact H]. eapply mok_add; [exact Hm|exact E|]. intros x [].
    + destruct (parse_key_sequence k) as [[code mods]|] eqn:Ek; [|discriminate]. apply keyseq_named in Ek.
      destruct (add_entry _ _ _) eqn:E; [|discriminate]. eapply IH; [|exact H]. eapply mok_add; [exact Hm|exact E|].
      unfold step_presses. cbn [m_type m_data]. intros x ->. rewrite low_16, N.mod_small by now apply named_low. exact Ek.
Qed.
Local Opaque parse_key_sequence unicode_runs unicode_lookup_index keycode_table.
Lemma text_mok : forall f tok m m', mok m -> parse_text f tok m = Ok (Some m') -> mok m'.
Proof.
  induction f as [|f IH]; intros tok m m' Hm H; cbn [parse_text] in H; [now injection H as <-|].
  bstep H r E. destruct r as [sz cp]. destruct sz as [|sz]; [now injection H as <-|].
  match type of H with match ?n with _ => _ end = _ => destruct n as [m1|] eqn:En; [|discriminate] end.
  eapply IH; [|exact H]. clear H. destruct (_ && _).
  - destruct (ascii_key keycode_table 0 (ch tok 0)) as [d|] eqn:Ea; [|injection En as <-; exact Hm].
    apply ascii_named in Ea as (x & _ & X2 & X3).
    2: { vm_compute. reflexivity. }
    apply table_named in X2. pose proof (named_low _ X2) as Hl. eapply mok_add; [exact Hm|exact En|].
    unfold step_presses. cbn [m_type m_data]. intros y ->. rewrite low_16.
    destruct X3 as [->| ->]; [rewrite N.mod_small by exact Hl|rewrite low_lor by exact Hl]; exact X2.
  - destruct (unicode_lookup_index cp) as [x|]; [|injection En as <-; exact Hm].
    destruct (0 <? x); [|injection En as <-; exact Hm].
    eapply mok_add; [exact Hm|exact En|]. unfold step_presses. cbn [m_type m_data]. intros y. apply unicode_named.
Qed.
Lemma token_mok tok m m' : mok m -> parse_token tok m = Ok (Some m') -> mok m'.
Proof.
  intros Hm H. unfold parse_token in H. destruct (parse_key_sequence tok) as [[code mods]|] eqn:Ek.
  - apply keyseq_named in Ek. apply Ok_inj in H. eapply mok_add; [exact Hm|exact H|].
    unfold step_presses. cbn [m_type m_data]. intros x ->. rewrite low_16, low_lor by now apply named_low. exact Ek.
  - destruct (has_char 43 tok); [apply Ok_inj in H; eapply group_mok; eauto|].
    destruct (is_timeval tok).
    + apply Ok_inj in H. eapply mok_add; [exact Hm|exact H|]. intros x [].
    + eapply text_mok; eauto.
Qed.
Lemma macro_mok s m : macro_parse s = Ok (Some m) -> mok m.
Proof.
  unfold macro_parse. generalize (tokens 32 s) as ts. assert (G : mok []) by (intros e []). revert G. generalize (@nil mentry) as m0.
  intros m0 G ts. revert m0 G. induction ts as [|t ts IH]; intros m0 G H; cbn [parse_tokens] in H; [now injection H as <-|].
  bstep H o E. destruct o as [m1|]; [|discriminate]. eapply IH; [|exact H]. eapply token_mok; eauto.
Qed.
Lemma expr_mok s m : parse_macro_expression s = Ok (POk m) -> mok m.
Proof.
  unfold parse_macro_expression. intros H. destruct (_ <=? _); [discriminate|]. destruct (_ && _).
  - bstep H o E. destruct o; [|discriminate]. injection H as <-. eapply macro_mok; eauto.
  - bstep H v E. destruct v; [|discriminate]. bstep H o E2. destruct o; [|discriminate]. injection H as <-. eapply macro_mok; eauto.
Qed.

(* ---- actions ----------------------------------------------------------------------- *)
Lemma cok_macro c m : cok c -> mok m -> cok (set_c_macros (c_macros c ++ [m]) c).
Proof.
  intros (H1 & H2 & H3 & H4) Hm. split; [|split; [|split]]; auto. intros m' Hin. cbn in Hin.
  apply in_app_iff in Hin as [Hin|[<-|[]]]; auto.
Qed.
Lemma cok_desc c d : cok c -> dok d -> cok (set_c_descs (c_descs c ++ [d]) c).
Proof.
  intros (H1 & H2 & H3 & H4) Hm. split; [|split; [|split]]; auto. intros m' Hin. cbn in Hin.
  apply in_app_iff in Hin as [Hin|[<-|[]]]; auto.
Qed.
Lemma cok_same c c' : c_layers c' = c_layers c -> c_descs c' = c_descs c -> c_macros c' = c_macros c -> cok c -> cok c'.
Proof. intros E1 E2 E3 (H1 & H2 & H3 & H4). split; [|split; [|split]]; rewrite ?E1, ?E2, ?E3; auto. Qed.
Lemma build_dok o vs : dok (build o vs).
Proof.
  destruct o; destruct vs as [|[] [|[] [|[] [|? ?]]]]; exact Logic.I.
Qed.
Definition rok {A} (Q : A -> Prop) (r : config * option A) : Prop := cok (fst r) /\ forall a, snd r = Some a -> Q a.
Section Body.
Variable pd : config -> str -> res (config * option desc).
Hypothesis Hpd : forall c s r, cok c -> pd c s = Ok r -> rok dok r.
Lemma arg_cok c t a r : cok c -> parse_arg pd c t a = Ok r -> cok (fst r).
Proof.
  intros Hc H.
  assert (G : parse_simple_arg c t a = Ok r -> cok (fst r)).
  { clear H. intros H. unfold parse_simple_arg in H.
    destruct t; try (repeat match type of H with context [if ?b then _ else _] => destruct b
      | context [match ?o with Some _ => _ | None => _ end] => destruct o end; apply Ok_inj in H; subst r; exact Hc).
    destruct (Nat.leb _ _); [apply Ok_inj in H; subst r; exact Hc|]. bstep H o E.
    destruct o; apply Ok_inj in H; subst r; try exact Hc. apply cok_macro; auto. eapply expr_mok; eauto. }
  destruct t; auto. cbn [parse_arg] in H. bstep H r1 E. destruct r1 as [c1 d].
  apply Hpd in E as [E1 E2]; auto. cbn [fst snd] in *.
  destruct d as [d|]; [|apply Ok_inj in H; subst r; exact E1].
  destruct (_ <=? _); apply Ok_inj in H; subst r; auto. apply cok_desc; auto.
Qed.
Lemma args_cok : forall ts c vals r, cok c -> parse_args pd ts c vals = Ok r -> cok (fst r).
Proof.
  induction ts as [|[t a] ts IH]; intros c vals r Hc H; cbn [parse_args] in H; [apply Ok_inj in H; now subst r|].
  bstep H r1 E. destruct r1 as [c1 v]. apply arg_cok in E; auto. cbn [fst] in E.
  destruct v as [v|]; [eapply IH; eauto|apply Ok_inj in H; now subst r].
Qed.
Lemma body_cok c s r : cok c -> parse_body pd c s = Ok r -> rok dok r.
Proof.
  intros Hc H. unfold parse_body in H.
  assert (N0 : rok dok (c, None)) by (split; [exact Hc|discriminate]).
  assert (N1 : forall d, dok d -> rok dok (c, Some d)) by (intros d Hd; split; [exact Hc|intros ? [= <-]; exact Hd]).
  destruct s as [|x s'] eqn:Es; [apply Ok_inj in H; subst r; now apply N1|]. rewrite <- Es in *. clear Es x s'.
  destruct (parse_key_sequence s) as [[code mods]|] eqn:Ek.
  { destruct (mod_layer_name code); [|apply Ok_inj in H; subst r; apply N1; exact (keyseq_named _ _ _ Ek)].
    destruct (config_get_layer_index _ _); [|discriminate]. apply Ok_inj in H. subst r. now apply N1. }
  destruct (parse_command s) as [| |cmd].
  - bstep H o E. destruct o as [| |m].
    + bstep H o2 E2. destruct o2 as [[fn args]|]; [|apply Ok_inj in H; now subst r].
      bstep H o3 E3. destruct o3 as [[fn2 args2]|]; [|apply Ok_inj in H; now subst r].
      unfold parse_call in H. destruct (find_action actions fn2) as [[op ts]|]; [|apply Ok_inj in H; now subst r].
      destruct (negb _); [apply Ok_inj in H; now subst r|]. bstep H r4 E4. destruct r4 as [c4 vals].
      apply args_cok in E4; auto. cbn [fst] in E4. apply Ok_inj in H. subst r. split; [exact E4|].
      cbn [snd]. intros d. destruct vals; [|discriminate]. intros [= <-]. apply build_dok.
    + apply Ok_inj in H. now subst r.
    + destruct (Nat.leb _ _); apply Ok_inj in H; subst r; auto. split; [apply cok_macro; auto; eapply expr_mok; eauto|].
      intros ? [= <-]. exact Logic.I.
  - apply Ok_inj in H. now subst r.
  - destruct (Nat.leb _ _); apply Ok_inj in H; subst r; auto. split; [now apply (cok_same c)|]. intros ? [= <-]. exact Logic.I.
Qed.
End Body.
Lemma desc_cok : forall f c s r, cok c -> parse_desc f c s = Ok r -> rok dok r.
Proof.
  induction f as [|f IH]; intros c s r Hc H; [discriminate|]. rewrite parse_desc_S in H.
  eapply body_cok; [|exact Hc|exact H]. exact IH.
Qed.

(* ---- bindings ---------------------------------------------------------------------- *)
Definition lok (l : layer) : Prop := (forall code, dok (ly_keymap l code)) /\ forall ch, In ch (ly_chords l) -> dok (ch_d ch).
Lemma cok_layers c ls : cok c -> (forall l, In l ls -> lok l) -> cok (set_c_layers ls c).
Proof.
  intros (H1 & H2 & H3 & H4) Hl. split; [|split; [|split]]; auto; cbn [c_layers set_c_layers]; intros; now apply (Hl l).
Qed.
Lemma cok_lok c l : cok c -> In l (c_layers c) -> lok l.
Proof. intros (H1 & H2 & H3 & H4) Hl. split; auto. intros ch. now apply H2. Qed.
Lemma lok_nth c i : cok c -> lok (nth i (c_layers c) zero_layer).
Proof.
  intros Hc. destruct (Nat.ltb_spec i (length (c_layers c))); [apply (cok_lok c); auto; now apply nth_In|].
  rewrite nth_overflow by auto. split; [intros; exact Logic.I|intros ch []].
Qed.
Lemma set_entry_lok al l key d l' : lok l -> dok d -> set_layer_entry al l key d = Some l' -> lok l'.
Proof.
  intros [H1 H2] Hd H. unfold set_layer_entry in H. destruct (has_char 43 key).
  - destruct (chord_codes _ _); [|discriminate]. destruct (lookup_chord_from _ _ _).
    + injection H as <-. split; auto. cbn [ly_chords set_ly_chords]. intros ch Hin.
      assert (G : Forall (fun ch => dok (ch_d ch)) (upd n (mkChord (ch_keys (nth n (ly_chords l) zero_chord)) d) (ly_chords l))).
      { apply Forall_upd; [now apply Forall_forall|exact Hd]. }
      rewrite Forall_forall in G. now apply G.
    + destruct (Nat.ltb _ _); [|discriminate]. injection H as <-. split; auto. cbn [ly_chords set_ly_chords]. intros ch Hin.
      apply in_app_iff in Hin as [Hin|[<-|[]]]; auto.
  - destruct (existsb _ _).
    + injection H as <-. split; auto. intros code. cbn [ly_keymap set_ly_keymap]. destruct (_ && _); auto.
    + destruct (_ =? 0); [discriminate|]. injection H as <-. split; auto. intros code. cbn [ly_keymap set_ly_keymap].
      unfold fupd. destruct (_ =? _); auto.
Qed.
Lemma In_upd {A} i (x : A) l y : In y (upd i x l) -> y = x \/ In y l.
Proof.
  revert i. induction l as [|a l IH]; intros [|i] H; cbn in *; auto; destruct H as [H|H]; auto.
  apply IH in H as [H|H]; auto.
Qed.
Lemma entry_cok c exp r : cok c -> config_add_entry c exp = Ok r -> cok (fst r).
Proof.
  intros Hc H. unfold config_add_entry in H. destruct (_ <=? _); [apply Ok_inj in H; now subst r|]. cbv zeta in H.
  match type of H with (let '(a, b) := ?x in _) = _ => destruct x as [lname s] end.
  destruct (parse_kvp s) as [key val].
  destruct (config_get_layer_index c lname) as [idx|]; [|apply Ok_inj in H; now subst r].
  bstep H r1 E. destruct r1 as [c1 d].
  assert (G : rok dok (c1, d)).
  { destruct val; [eapply desc_cok; [exact Hc|exact E]|]. apply Ok_inj in E. injection E as <- <-.
    split; [exact Hc|]. intros ? [= <-]. exact Logic.I. }
  destruct G as [G1 G2]. cbn [fst snd] in *. destruct d as [d|]; [|apply Ok_inj in H; now subst r].
  destruct (set_layer_entry _ _ _ _) as [l|] eqn:El; apply Ok_inj in H; subst r; auto.
  apply cok_layers; auto. intros l' Hl. apply In_upd in Hl as [->|Hl]; [|now apply (cok_lok c1)].
  eapply set_entry_lok; [|now apply G2|exact El]. now apply lok_nth.
Qed.

(* ---- files ------------------------------------------------------------------------- *)
Lemma foldr_cok {A} (f : config -> A -> res config) : (forall c e c', cok c -> f c e = Ok c' -> cok c') ->
  forall es c c', cok c -> foldr_res f es c = Ok c' -> cok c'.
Proof.
  intros Hf. induction es as [|e es IH]; intros c c' Hc H; cbn [foldr_res] in H; [apply Ok_inj in H; now subst c'|].
  bstep H c1 E. eauto.
Qed.
Lemma id_cok c e c' : cok c -> parse_id_entry c e = Ok c' -> cok c'.
Proof.
  intros Hc H. unfold parse_id_entry, add_id in H.
  repeat match type of H with context [if ?b then _ else _] => destruct b end; try discriminate;
    apply Ok_inj in H; subst c'; auto; now apply (cok_same c).
Qed.
Lemma global_cok c e c' : cok c -> parse_global_entry c e = Ok c' -> cok c'.
Proof.
  intros Hc H. unfold parse_global_entry in H. destruct e as [key [v|]];
  repeat match type of H with context [if ?b then _ else _] => destruct b end; try discriminate;
    apply Ok_inj in H; subst c'; auto; now apply (cok_same c).
Qed.
Lemma alias_cok c e c' : cok c -> parse_alias_entry c e = Ok c' -> cok c'.
Proof.
  intros Hc H. unfold parse_alias_entry in H. destruct e as [key val].
  destruct (_ =? 0); [apply Ok_inj in H; now subst c'|]. destruct val as [name|]; [|discriminate].
  destruct (Nat.leb _ _); [apply Ok_inj in H; now subst c'|]. cbv zeta in H. apply Ok_inj in H. subst c'.
  match goal with |- cok (set_c_aliases _ ?x) => assert (G : cok x) end.
  { destruct (N.eqb_spec (lookup_keycode name) 0) as [|Hn]; auto. destruct (c_layers c) as [|l ls] eqn:El; auto.
    apply cok_layers; auto. intros l' [<-|Hl].
    - destruct (cok_lok c l Hc) as [L1 L2]; [rewrite El; now left|]. split; auto. intros code. cbn [ly_keymap set_ly_keymap].
      unfold fupd. destruct (_ =? _); auto. now apply lookup_key.
    - apply (cok_lok c); auto. rewrite El. now right. }
  now apply (cok_same _ _ eq_refl eq_refl eq_refl G).
Qed.
Lemma layer_cok c s c' : cok c -> config_add_layer c s = Ok c' -> cok c'.
Proof.
  intros Hc H. unfold config_add_layer in H. destruct (Nat.leb _ _); [apply Ok_inj in H; now subst c'|].
  cbv zeta in H. destruct (match tokens 58 s with [] => None | n :: _ => _ end); [apply Ok_inj in H; now subst c'|].
  destruct (Nat.leb _ _); [apply Ok_inj in H; now subst c'|]. bstep H o E. apply Ok_inj in H. subst c'.
  destruct o as [l|]; auto. apply cok_layers; auto. intros l' Hl. apply in_app_iff in Hl as [Hl|[<-|[]]]; [now apply (cok_lok c)|].
  enough (X : ly_keymap l = (fun _ => DNone) /\ ly_chords l = []).
  { destruct X as [X1 X2]. split; [intros; rewrite X1; exact Logic.I|rewrite X2; intros ? []]. }
  unfold new_layer in E. destruct (tokens 58 s) as [|n rest]; [discriminate|]. cbv zeta in E.
  destruct (has_char 43 n).
  - destruct rest; [|discriminate]. bstep E o2 E2. destruct o2; [|discriminate]. injection E as <-. auto.
  - destruct rest as [|t rest]; [injection E as <-; auto|]. destruct (str_eqb _ _); [injection E as <-; auto|].
    destruct (parse_modset t); injection E as <-; auto.
Qed.
Lemma string_cok c text c' : cok c -> config_parse_string c text = Ok (Some c') -> cok c'.
Proof.
  intros Hc H. unfold config_parse_string in H. bstep H o E. destruct o as [secs|]; [|discriminate].
  bstep H c1 E1. bstep H c2 E2. injection H as <-.
  assert (C1 : cok c1).
  { eapply foldr_cok; [|exact Hc|exact E1]. intros c0 s c0' H0 X. unfold pass1_section in X.
    destruct (str_eqb _ _); [eapply foldr_cok; [|exact H0|exact X]; exact id_cok|].
    destruct (str_eqb _ _); [eapply foldr_cok; [|exact H0|exact X]; exact alias_cok|].
    destruct (str_eqb _ _); [eapply foldr_cok; [|exact H0|exact X]; exact global_cok|].
    eapply layer_cok; eauto. }
  eapply foldr_cok; [|exact C1|exact E2]. intros c0 s c0' H0 X. unfold pass2_section in X.
  destruct (_ || _ || _); [apply Ok_inj in X; now subst c0'|].
  eapply foldr_cok; [|exact H0|exact X]. intros c3 e c3' H3 Y. unfold pass2_entry in Y.
  destruct (snd e); [|apply Ok_inj in Y; now subst c3']. destruct (hd_error _); [|discriminate].
  bstep Y r Er. destruct r as [c4 b]. apply Ok_inj in Y. subst c3'. apply entry_cok in Er; auto.
Qed.
Lemma zero_cok : cok zero_config.
Proof. split; [|split; [|split]]; cbn; intros; contradiction. Qed.
Theorem parse_cok text c : config_parse text = Ok (Some c) -> cok c.
Proof.
  unfold config_parse. intros H. bstep H c0 E. eapply string_cok; [|exact H].
  unfold config_init in E. bstep E o E1. destruct o as [c1|]; apply Ok_inj in E; subst c0; [|exact zero_cok].
  apply string_cok in E1; [|exact zero_cok]. now apply (cok_same c1).
Qed.
