(* C58, C59: what the texts of macros and actions stand for. *)
From Coq Require Import String Lia.
From Verif Require Import Base Lib KeyTable Keys Types Str UnicodeTable MacroParse MacroExec Ini Config Hist SpecNotation SpecText SpecBind SpecClient SpecExpr
  NotationProofs MacroProofs TextProofs BindProofs ParseWf ParseFrame PropNotation PropClient ExprProofs ActionProofs.
Local Open Scope N_scope.
Local Open Scope list_scope.
Local Notation length := List.length.
Local Opaque parse_key_sequence us_rows unicode_runs unicode_lookup_index keycode_table.

(* ---- C58 ------------------------------------------------------------------------------- *)
(* A valid UTF-8 text is accepted as a macro exactly if it is one by the notation and fits
   into a macro, and then its entries are those of its elements. *)
Theorem C58_notation : forall s, utf8_text s -> exists o, macro_parse s = Ok o
  /\ forall m, o = Some m <-> exists es, macro_text s es /\ macro_fits es /\ m = flat_map encode es.
Proof. exact macro_ok. Qed.
Lemma us_small c code sh : us_key c code sh -> code < 256.
Proof.
  intros (f & p & s & i & H1 & H2 & -> & _).
  assert (X : forallb (fun '(f, p, s) => f + N.of_nat (length p) <? 256) us_rows = true) by (vm_compute; reflexivity).
  rewrite forallb_forall in X. specialize (X _ H1). cbv beta iota in X. apply N.ltb_lt in X. lia.
Qed.
Lemma pause_small w t : pause_ms w t -> t < 65536.
Proof. intros [z [_ ->]]. pose proof (Z.mod_pos_bound z 65536 ltac:(lia)). lia. Qed.
Lemma word_range w es : word_adds w es -> Forall in_range es.
Proof.
  intros [w' c m K|w' ks items _ _ _ G|w' t _ _ _ P|cps ess _ _ _ _ G].
  - constructor; [|constructor]. apply key_range in K. split; apply K.
  - constructor; [|constructor]. cbn [in_range]. induction G as [|k g ks items A G IH]; constructor; auto.
    destruct A as [w1 t _ P|w1 c m _ K]; [eapply pause_small; eauto|now apply key_range in K].
  - constructor; [|constructor]. eapply pause_small; eauto.
  - induction G as [|c e cps ess A G IH]; cbn [concat]; [constructor|]. apply Forall_app. split; auto. destruct A as [c code sh A|c idx A B|c A B].
    + constructor; [|constructor]. apply us_small in A. split; auto. destruct sh; reflexivity.
    + constructor; [|constructor]. apply table_high in A. split; [exact B|apply A].
    + constructor.
Qed.
Lemma macro_range s es : macro_text s es -> Forall in_range es.
Proof.
  intros [ws [ess [_ [G ->]]]]. induction G as [|w e ws ess A G IH]; cbn [concat]; [constructor|]. apply Forall_app. split; auto. now apply word_range in A.
Qed.
(* What it runs: the events of its elements in their order (C27 says what each element is). *)
Theorem C58_runs : forall s es, utf8_text s -> macro_text s es -> macro_fits es -> Forall plain_groups es ->
  exists m, macro_parse s = Ok (Some m) /\ macro_execute m 0 = flat_map says es.
Proof.
  intros s es T M F P. destruct (macro_ok s T) as [o [E X]]. assert (H : o = Some (flat_map encode es)) by (apply X; eauto).
  subst o. exists (flat_map encode es). split; auto. apply macro_says; auto. eapply macro_range; eauto.
Qed.
(* The notation is unambiguous. *)
Theorem C58_unambiguous : forall s es es', utf8_text s -> macro_text s es -> macro_text s es' -> macro_fits es -> macro_fits es' ->
  flat_map encode es = flat_map encode es'.
Proof.
  intros s es es' T M M' F F'. destruct (macro_ok s T) as [o [E X]].
  assert (H : o = Some (flat_map encode es)) by (apply X; eauto). assert (H' : o = Some (flat_map encode es')) by (apply X; eauto).
  rewrite H in H'. now injection H'.
Qed.
(* As the value of a binding: macro(...) with its escapes undone, a key or one character. *)
Theorem C58_expression : forall s, utf8_text s -> exists r, parse_macro_expression s = Ok r /\ forall m, r = POk m <-> macro_expr s m.
Proof. intros s T. destruct (macro_expr_ok s T) as [r [E [X _]]]. eauto. Qed.
Example C58_example : let s := bs "C-x 20ms 5ms+a+b Hi" in
  utf8_text s /\ macro_text s [EKey 8 45; EPause 20; EGroup [GPause 5; GKey 30; GKey 48]; EKey 4 35; EKey 0 23]
  /\ macro_fits [EKey 8 45; EPause 20; EGroup [GPause 5; GKey 30; GKey 48]; EKey 4 35; EKey 0 23]
  /\ Forall plain_groups [EKey 8 45; EPause 20; EGroup [GPause 5; GKey 30; GKey 48]; EKey 4 35; EKey 0 23].
Proof.
  cbv zeta.
  assert (T : utf8_text (bs "C-x 20ms 5ms+a+b Hi")) by (apply bs_text_ov; repeat constructor).
  split; [exact T|]. split; [|split].
  - exists [bs "C-x"; bs "20ms"; bs "5ms+a+b"; bs "Hi"], [[EKey 8 45]; [EPause 20]; [EGroup [GPause 5; GKey 30; GKey 48]]; [EKey 4 35; EKey 0 23]].
    split; [apply tokens_parts; vm_compute; reflexivity|]. split; [|reflexivity].
    assert (P : forall ds : str, ds <> [] -> Forall digit ds -> pause_text (ds ++ bs "ms")) by (intros ds N F; exists ds, []; auto).
    repeat apply Forall2_cons; try apply Forall2_nil.
    + apply (wa_key _ 45 8). apply key_parses. vm_compute. reflexivity.
    + apply wa_pause; [apply not_key; vm_compute; reflexivity|not_in|apply (P [50; 48]); [discriminate|repeat constructor; discriminate]|].
      exists 20%Z. split; [apply number_iff; vm_compute; reflexivity|reflexivity].
    + apply (wa_group _ [bs "5ms"; bs "a"; bs "b"]); [apply not_key; vm_compute; reflexivity|vm_compute; tauto|apply tokens_parts; vm_compute; reflexivity|].
      assert (NP : forall w, has_char 0 w = false -> is_timeval w = false -> ~ pause_text w)
        by (intros w Hz Hw; apply not_pause; auto; intros X; apply has_char_iff in X; congruence).
      repeat apply Forall2_cons; try apply Forall2_nil.
      * apply ga_pause; [apply (P [53]); [discriminate|repeat constructor; discriminate]|]. exists 5%Z. split; [apply number_iff; vm_compute; reflexivity|reflexivity].
      * apply (ga_key _ 30 0); [apply NP; vm_compute; reflexivity|apply key_parses; vm_compute; reflexivity].
      * apply (ga_key _ 48 0); [apply NP; vm_compute; reflexivity|apply key_parses; vm_compute; reflexivity].
    + apply (wa_text [72; 105] [[EKey 4 35]; [EKey 0 23]]); [apply not_key; vm_compute; reflexivity|not_in| |repeat constructor; discriminate|].
      * intros [ds [r [N [F [E _]]]]]. destruct ds as [|d ds]; [congruence|]. apply Forall_cons_iff in F as [F _]. injection E as <- _. destruct F as [F1 F2]. now vm_compute in F2.
      * repeat apply Forall2_cons; try apply Forall2_nil.
        -- apply (ca_key 72 35 true). apply us_find_ok. vm_compute. reflexivity.
        -- apply (ca_key 105 23 false). apply us_find_ok. vm_compute. reflexivity.
  - unfold macro_fits. vm_compute. repeat constructor.
  - repeat constructor.
Qed.
(* False: every key of a macro gets the modifiers written with it (a group ignores them). *)
Theorem C58_group_modifiers_refuted : exists w w' m, w = bs "C-a+b" /\ w' = bs "a+b" /\ macro_parse w = Ok (Some m) /\ macro_parse w' = Ok (Some m).
Proof. eexists _, _, _. split; [reflexivity|]. split; [reflexivity|]. split; vm_compute; reflexivity. Qed.
(* False: a macro that is accepted types all its characters (unknown ones are skipped). *)
Theorem C58_skipped_refuted : exists cp m, scalar cp /\ macro_parse (bs "x" ++ utf8 cp ++ bs "y") = Ok (Some m) /\ macro_parse (bs "xy") = Ok (Some m).
Proof. exists 7. eexists. split; [split; reflexivity|]. split; vm_compute; reflexivity. Qed.

(* ---- C59 ------------------------------------------------------------------------------- *)
(* Whatever the value of a binding is read as is what it means, with the macros, commands and
   nested actions it refers to in the tables. *)
Theorem C59_sound : forall c s c' d, utf8_text s -> parse_descriptor c s = Ok (c', Some d) -> means c' s d.
Proof. intros c s c' d T H. eapply desc_sound; eauto. Qed.
(* The tables only grow, so that later bindings do not change the meaning. *)
Theorem C59_stays : forall c s c' o s' d, parse_descriptor c s = Ok (c', o) -> means c s' d -> means c' s' d.
Proof. intros c s c' o s' d H M. eapply means_wider; [|exact M]. apply grows_wider. eapply parse_desc_grows; eauto. Qed.
(* Every text that means something is read, unless a table is full. *)
Theorem C59_complete : forall c c0 s d, utf8_text s -> c_layers c0 = c_layers c -> means c0 s d ->
  exists c' o, parse_descriptor c s = Ok (c', o) /\ (o = None -> table_full c').
Proof.
  intros c c0 s d T L M. eapply desc_complete; eauto. intros E.
  pose proof (desc_within true (2 * length s + 2) s c ltac:(lia) (or_introl eq_refl) (or_introl eq_refl)) as W.
  unfold parse_descriptor in E. rewrite E in W. exact W.
Qed.
(* A text without a meaning is refused or, with too many arguments, aborts the parser. *)
Theorem C59_refused : forall c s, utf8_text s -> (forall c' d, c_layers c' = c_layers c -> ~ means c' s d) ->
  forall c' o, parse_descriptor c s = Ok (c', o) -> o = None.
Proof.
  intros c s T H c' o E. destruct o as [d|]; auto. exfalso. apply (H c' d).
  - apply parse_desc_grows in E. apply grows_layers in E. apply E.
  - eapply C59_sound; eauto.
Qed.
Definition C59_config := cfg_of (bs "[nav]" ++ [10] ++ bs "a = x").
Example C59_example : let s := bs "lettermod(nav, f, 150, 200)" in exists c' i j j' k,
  parse_descriptor C59_config s = Ok (c', Some (DOverloadI i j 150%Z)) /\ means c' s (DOverloadI i j 150%Z)
  /\ nth_error (c_descs c') i = Some (DKey 33 0) /\ nth_error (c_descs c') j = Some (DOverloadT2 k j' 200%Z) /\ k = 6%nat
  /\ nth_error (c_descs c') j' = Some (DKey 33 0).
Proof.
  cbv zeta. destruct (parse_descriptor C59_config (bs "lettermod(nav, f, 150, 200)")) as [[c' o]| | |] eqn:E; [|vm_compute in E; discriminate E..].
  pose proof E as E0. vm_compute in E0. apply Ok_inj in E0. injection E0 as Ec Eo.
  destruct o as [d|]; [|discriminate Eo]. injection Eo as Ed. subst d.
  eexists c', _, _, _, _. split; [reflexivity|]. split; [eapply C59_sound; [apply bs_text_ov; repeat constructor|exact E]|].
  rewrite <- Ec. split; [reflexivity|]. split; [reflexivity|]. split; reflexivity.
Qed.
(* False: text after the closing parenthesis, or an empty argument, is an error. *)
Theorem C59_trailing_refuted : exists c s s', s = bs "layer(shift)junk" /\ s' = bs "layer(,shift)" /\
  exists i, parse_descriptor c s = Ok (c, Some (DLayer i)) /\ parse_descriptor c s' = Ok (c, Some (DLayer i)).
Proof. exists C59_config. eexists _, _. split; [reflexivity|]. split; [reflexivity|]. exists 2%nat. split; vm_compute; reflexivity. Qed.
(* False: a timeout is the number written, or is refused. *)
Theorem C59_timeout_refuted : exists c s c' i j, s = bs "overloadt(shift, a, 65536)" /\ parse_descriptor c s = Ok (c', Some (DOverloadT i j 0%Z)).
Proof. exists C59_config. eexists _, _, _, _. split; [reflexivity|]. vm_compute. reflexivity. Qed.
Definition C58_all := (C58_notation, C58_runs, C58_unambiguous, C58_expression, C58_example, C58_group_modifiers_refuted, C58_skipped_refuted,
  C59_sound, C59_stays, C59_complete, C59_refused, C59_example, C59_trailing_refuted, C59_timeout_refuted).
Print Assumptions C58_all.
