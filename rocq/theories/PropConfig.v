(* C60: what a configuration file as a whole means. *)
From Coq Require Import String Lia.
From Verif Require Import Base Lib KeyTable Keys Types Str UnicodeTable MacroParse Ini Config Hist SpecNotation SpecText SpecBind SpecClient SpecExpr SpecConfig
  NotationProofs MacroProofs TextProofs BindProofs ParseWf ParseFrame ParseTotal MatchProofs PropNotation PropClient ExprProofs ActionProofs ConfProofs LayerProofs.
Local Open Scope N_scope.
Local Open Scope list_scope.
Local Notation length := List.length.
Local Opaque parse_key_sequence us_rows unicode_runs unicode_lookup_index keycode_table start.

Lemma parsed text c secs : config_parse text = Ok (Some c) -> sections_of text secs ->
  exists c1, foldr_res pass1_section (map sec_of secs) start = Ok c1 /\ foldr_res pass2_section (map sec_of secs) c1 = Ok c.
Proof.
  intros H S. destruct (parse_from _ _ H) as [secs' [c1 [S' [E1 E2]]]]. pose proof (sections_unique _ _ _ S S'). subst. eauto.
Qed.
Lemma pass2_all secs c1 c : foldr_res pass2_section (map sec_of secs) c1 = Ok c -> later c1 c.
Proof. rewrite foldr_map. apply fold_later. intros a b d. apply pass2_section_later. Qed.
Lemma option_exists secs name : exists e, last_with (fun e : str * option str => fst e = name) (entries_of (bs "global") secs) e.
Proof. apply last_exists. apply Forall_forall. intros e _. destruct (list_eq_dec N.eq_dec (fst e) name); auto. Qed.
(* Options have the value given last, and otherwise their default. *)
Theorem C60_settings : forall text c secs, config_parse text = Ok (Some c) -> sections_of text secs ->
  (forall name get dflt, In (name, get, dflt) numbers -> exists o, option_value secs name o /\
     match o with None => get c = dflt | Some v => exists s, v = Some s /\ number s (get c) end)
  /\ (forall name get, In (name, get) flags -> exists o, option_value secs name o /\
     match o with None => get c = false | Some v => exists s z, v = Some s /\ number s z /\ (get c = true <-> (z mod 256 <> 0)%Z) end)
  /\ exists o, option_value secs (bs "default_layout") o /\
     match o with None => c_default_layout c = [] | Some v => exists s, v = Some s /\ c_default_layout c = short s end.
Proof.
  intros text c secs H S. destruct (parsed _ _ _ H S) as [c1 [E1 E2]].
  assert (opt : forall X (get : config -> X), (forall c c', opts c' = opts c -> get c' = get c) ->
    forall name (R : X -> option str -> Prop), (forall c e c', parse_global_entry c e = Ok c' -> (fst e = name -> R (get c') (snd e)) /\ (fst e <> name -> get c' = get c)) ->
    exists o, option_value secs name o /\ match o with None => get c = get start | Some v => R (get c) v end).
  { intros X get G name R HR. destruct (option_exists secs name) as [e He]. exists (option_map snd e). split; [exists e; split; [exact He|reflexivity]|].
    pose proof (option_fold get name (fun x e => R x (snd e)) HR G _ _ _ _ E1 E2 e He) as Y. destruct e; exact Y. }
  split; [|split].
  - intros name get dflt HI. destruct (opt Z get) with (name := name) (R := fun z (v : option str) => exists s, v = Some s /\ number s z) as [o [H1 H2]].
    + unfold numbers in HI. cbn [In] in HI. intros a b E. unfold opts in E. injection E as A1 A2 A3 A4 A5 A6 A7 A8 A9 A10.
      repeat destruct HI as [HI|HI]; try contradiction; injection HI as <- <- <-; congruence.
    + intros a e b E. destruct (number_entry _ _ _ HI _ _ _ E). auto.
    + exists o. split; auto. destruct o; auto. rewrite H2. clear - HI. unfold numbers in HI. cbn [In] in HI.
      repeat destruct HI as [HI|HI]; try contradiction; injection HI as <- <- <-; vm_compute; reflexivity.
  - intros name get HI. destruct (opt bool get) with (name := name) (R := fun z (v : option str) => exists s y, v = Some s /\ number s y /\ (z = true <-> (y mod 256 <> 0)%Z)) as [o [H1 H2]].
    + unfold flags in HI. cbn [In] in HI. intros a b E. unfold opts in E. injection E as A1 A2 A3 A4 A5 A6 A7 A8 A9 A10.
      repeat destruct HI as [HI|HI]; try contradiction; injection HI as <- <-; congruence.
    + intros a e b E. destruct (flag_entry _ _ HI _ _ _ E). auto.
    + exists o. split; auto. destruct o; auto. rewrite H2. clear - HI. unfold flags in HI. cbn [In] in HI.
      repeat destruct HI as [HI|HI]; try contradiction; injection HI as <- <-; vm_compute; reflexivity.
  - destruct (opt str c_default_layout) with (name := bs "default_layout") (R := fun z (v : option str) => exists s, v = Some s /\ z = short s) as [o [H1 H2]].
    + intros a b E. unfold opts in E. congruence.
    + intros a e b E. apply layout_entry in E as [A B]. auto.
    + exists o. split; [exact H1|]. destruct o as [v|]; [exact H2|]. rewrite H2. vm_compute. reflexivity.
Qed.
Lemma default_aliases_ok code o : last_with (alias_for code) default_aliases o -> c_aliases start code = match o with Some e => snd e | None => [] end.
Proof.
  pose proof start_ok as H. unfold config_init, config_parse_string in H. rewrite default_secs_ok in H. cbn [bind] in H.
  destruct (foldr_res pass1_section default_secs zero_config) as [c1| | |] eqn:E1; cbn [bind] in H; [|discriminate..].
  destruct (foldr_res pass2_section default_secs c1) as [c2| | |] eqn:E2; cbn [bind] in H; [|discriminate..]. apply Ok_inj in H. rewrite <- H. clear H.
  change (c_aliases _ code) with (c_aliases c2 code).
  set (secs := map (fun s => (sec_name s, sec_entries s)) default_secs).
  assert (Es : default_secs = map sec_of secs) by (vm_compute; reflexivity). rewrite Es in E1, E2.
  pose proof (pass2_all _ _ _ E2) as [_ [A _]]. rewrite A. intros HO.
  replace default_aliases with (valued (entries_of (bs "aliases") secs)) in HO by (vm_compute; reflexivity).
  apply aliases_parsed with (code := code) (o := o) in E1; auto.
  - destruct o; exact E1.
  - unfold secs, default_secs. cbn [map sec_name sec_entries]. repeat (apply Forall_cons; [unfold named; cbn [snd]; repeat (apply Forall_cons; [discriminate|]); apply Forall_nil|]). apply Forall_nil.
Qed.
(* The alias of a key is the one given last for it, the default aliases coming first. *)
Theorem C60_aliases : forall text c secs code, config_parse text = Ok (Some c) -> sections_of text secs ->
  exists o, last_with (alias_for code) (aliases_of secs) o /\ c_aliases c code = match o with Some e => snd e | None => [] end.
Proof.
  intros text c secs code H S. destruct (parsed _ _ _ H S) as [c1 [E1 E2]]. pose proof (sections_named _ _ S) as N.
  destruct (last_exists (alias_for code) (aliases_of secs)) as [o HO].
  { assert (D : forall e : str * str, fst e <> [] -> alias_for code e \/ ~ alias_for code e).
    { intros [k v] Hk. cbn [fst] in Hk. destruct (Nat.lt_ge_cases (length v) 32) as [G|G]; [|right; intros [_ X]; cbn [snd] in X; lia].
      destruct (table_dec k Hk) as [[a T]|T]; [|right; intros [X _]; now apply T in X].
      destruct (N.eq_dec a code) as [->|Ne]; [left; split; auto|]. right. intros [X _]. apply Ne. cbn [fst] in X. apply table_lookup in X as [<- _]; auto.
      apply table_lookup in T as [<- _]; auto. }
    apply Forall_app. split; apply Forall_forall; intros e I; apply D.
    - unfold default_aliases in I. cbn [In] in I. repeat destruct I as [I|I]; try contradiction; subst e; discriminate.
    - pose proof (entries_named (bs "aliases") secs N) as X. rewrite Forall_forall in X. unfold valued in I. apply in_flat_map in I as [[k v] [I1 I2]].
      apply X in I1. cbn [fst snd] in *. destruct v; [destruct I2 as [<-|[]]; exact I1|destruct I2]. }
  exists o. split; auto. pose proof (pass2_all _ _ _ E2) as [_ [A _]]. rewrite A.
  apply last_app in HO as [[e [-> HO]]|[HO HN]].
  - exact (aliases_parsed _ _ _ code N E1 _ HO).
  - pose proof (aliases_parsed _ _ _ code N E1 _ HN) as X. cbn in X. rewrite X. now apply default_aliases_ok.
Qed.
(* The layers are the default ones and those the section headers declare. *)
Theorem C60_layers : forall text c secs, config_parse text = Ok (Some c) -> sections_of text secs -> layers_after default_heads secs (map head_of (c_layers c)).
Proof.
  intros text c secs H S. destruct (parsed _ _ _ H S) as [c1 [E1 E2]]. apply pass1_heads in E1. rewrite start_heads in E1.
  pose proof (pass2_all _ _ _ E2) as [A _]. unfold heads in *. now rewrite A.
Qed.
(* No two layers have the same name. *)
Theorem C60_unique : forall text c i l, config_parse text = Ok (Some c) -> nth_error (c_layers c) i = Some l -> layer_of c (ly_name l) i.
Proof.
  intros text c i l H E. destruct (parse_from _ _ H) as [secs [c1 [S _]]]. apply layer_unique; auto.
  apply (layers_after_unique default_heads secs); [now apply (C60_layers text)|]. cbn. repeat constructor; cbn; intuition discriminate.
Qed.
(* A key of a layer does what its last meaningful binding says. *)
Theorem C60_binding : forall text c secs ln i l code, config_parse text = Ok (Some c) -> sections_of text secs -> orderly secs -> ~ table_full c ->
  layer_of c ln i -> nth_error (c_layers c) i = Some l -> code < 256 ->
  forall o, last_with (binds c code) (bindings ln secs) o ->
  match o with Some b => means c (snd b) (ly_keymap l code) | None => unbound secs i code (ly_keymap l code) end.
Proof.
  intros text c secs ln i l code H S [O1 O2] NF HL El Hc o HO. destruct (parsed _ _ _ H S) as [c1 [E1 E2]].
  pose proof (sections_named _ _ S) as N. pose proof (sections_shaped _ _ S) as Sh.
  pose proof (collect c ln (fun c => keys_of c i code) (keys_phi c code) NF (keys_nil c code) (keys_app c code)
    (fun c0 lnx k v c2 A B E => keys_step c ln i code c0 lnx k v c2 HL A B E) secs Sh O2 c1 c E2 (later_refl c) o HO) as X.
  assert (Ek : keys_of c i code = Some (ly_keymap l code)) by (unfold keys_of; rewrite El; reflexivity). cbv beta in X. rewrite Ek in X. destruct o as [b|].
  { destruct X as [d [X1 X2]]. injection X1 as ->. exact X2. }
  pose proof (fold_pres _ _ fresh_pass1 _ _ _ start_fresh E1) as [F1 [F2 F3]].
  unfold keys_of in X. destruct i as [|i]; cbn [unbound].
  - assert (Hm : main_key code c1 = ly_keymap l code). { unfold main_key. unfold some_layer in F1. destruct (c_layers c1); [congruence|]. cbn in X. congruence. }
    destruct (last_exists (alias_binds code) (valued (entries_of (bs "aliases") secs))) as [o HA].
    { apply Forall_forall. intros [k v] I. unfold valued in I. apply in_flat_map in I as [[k0 v0] [I1 I2]]. cbn [fst snd] in I2.
      destruct v0 as [v0|]; [|destruct I2]. destruct I2 as [I2|[]]. injection I2 as -> ->.
      pose proof (entries_named (bs "aliases") secs N) as Y. rewrite Forall_forall in Y, O1. apply Y in I1 as Hk. apply O1 in I1 as Hv. cbn [fst snd] in *.
      assert (Hv' : v <> []) by (intros ->; now apply Hv).
      destruct (Nat.lt_ge_cases (length v) 32) as [G|G]; [|right; intros [[_ Z0] _]; cbn [snd] in Z0; lia].
      destruct (table_dec v Hv') as [[b Tb]|Tb]; [|right; intros [_ [b Z0]]; now apply Tb in Z0].
      destruct (table_dec k Hk) as [[a T]|T]; [|right; intros [[Z0 _] _]; now apply T in Z0].
      destruct (N.eq_dec a code) as [->|Ne]; [left; split; [split; auto|eauto]|]. right. intros [[Z0 _] _]. apply Ne. cbn [fst] in Z0. apply table_lookup in Z0 as [<- _]; auto.
      apply table_lookup in T as [<- _]; auto. }
    exists o. split; auto. pose proof (main_parsed _ _ _ code start_fresh N O1 E1 _ HA) as Y. destruct o as [e|]; cbn [outcome] in Y; rewrite Hm in Y; auto.
    rewrite Y. now apply start_main.
  - destruct (nth_error (c_layers c1) (Datatypes.S i)) as [l1|] eqn:E1'; [|discriminate]. cbn in X. injection X as ->. apply F3; auto.
    destruct (c_layers c1); [discriminate|]. cbn [nth_error tl] in *. now apply nth_error_In in E1'.
Qed.
(* The chords of a layer are those its bindings with a plus sign make, in their order. *)
Theorem C60_chords : forall text c secs ln i l, config_parse text = Ok (Some c) -> sections_of text secs -> orderly secs -> ~ table_full c ->
  layer_of c ln i -> nth_error (c_layers c) i = Some l -> chords_after c [] (bindings ln secs) (ly_chords l).
Proof.
  intros text c secs ln i l H S [O1 O2] NF HL El. destruct (parsed _ _ _ H S) as [c1 [E1 E2]]. pose proof (sections_shaped _ _ S) as Sh.
  pose proof (collect c ln (fun c => chords_of c i) (chords_phi c) NF (chords_nil c) (chords_app c)
    (fun c0 lnx k v c2 A B E => chords_step c ln i c0 lnx k v c2 HL A B E) secs Sh O2 c1 c E2 (later_refl c)) as X.
  pose proof (fold_pres _ _ fresh_pass1 _ _ _ start_fresh E1) as [F1 [F2 F3]].
  assert (Hn : exists l1, nth_error (c_layers c1) i = Some l1).
  { pose proof (pass2_all _ _ _ E2) as [A _]. unfold heads in A. apply (f_equal (fun x => nth_error x i)) in A. rewrite !nth_error_map, El in A.
    destruct (nth_error (c_layers c1) i); [eauto|discriminate]. }
  destruct Hn as [l1 H1]. unfold chords_phi, chords_of in X. rewrite H1, El in X. cbn [option_map] in X.
  rewrite (F2 l1) in X by now apply nth_error_In in H1. destruct (X [] eq_refl ltac:(cbn; lia)) as [chs [X1 [_ X2]]]. injection X1 as ->. exact X2.
Qed.

(* ---- examples ---------------------------------------------------------------------------- *)
Definition asciib (s : str) : bool := forallb (fun c => (0 <? c) && (c <? 128)) s.
Definition orderlyb (secs : sections) : bool :=
  forallb (fun e : str * option str => match snd e with Some [] => false | _ => true end) (entries_of (bs "aliases") secs)
  && forallb (fun s : str * list (str * option str) => is_special (fst s) || (negb (existsb (N.eqb 46) (layer_part (fst s))) && negb (existsb (N.eqb 40) (layer_part (fst s)))
       && forallb (fun e : str * option str => match snd e with None => true | Some v => asciib v && Nat.leb (length (layer_part (fst s)) + length (fst e) + length v) 507 end) (snd s))) secs.
Lemma no_in c s : negb (existsb (N.eqb c) s) = true -> ~ In c s.
Proof. intros H I. apply negb_true_iff in H. apply (eq_true_false_abs _) with (2 := H). apply existsb_exists. exists c. now rewrite N.eqb_refl. Qed.
Lemma orderlyb_ok secs : orderlyb secs = true -> orderly secs.
Proof.
  unfold orderlyb. intros H. apply andb_true_iff in H as [A B]. rewrite forallb_forall in A, B. split; apply Forall_forall.
  - intros [k v] I. specialize (A _ I). cbn [snd] in A |- *. destruct v as [[|]|]; [discriminate A|intros X; discriminate X..].
  - intros s I NS. specialize (B s I). destruct (is_special (fst s)) eqn:Sp; [apply special_iff in Sp; now destruct NS|]. cbn [orb] in B.
    apply andb_true_iff in B as [B B3]. apply andb_true_iff in B as [B1 B2]. split; [now apply no_in|]. split; [now apply no_in|].
    apply Forall_forall. intros [k v] Ie. rewrite forallb_forall in B3. specialize (B3 _ Ie). cbn [fst snd] in B3. unfold orderly_binding. destruct v as [v|]; auto.
    apply andb_true_iff in B3 as [C1 C2]. split; [|now apply Nat.leb_le]. apply bs_text_ov. unfold asciib in C1. rewrite forallb_forall in C1. apply Forall_forall.
    intros x Ix. apply C1 in Ix. apply andb_true_iff in Ix as [X1 X2]. apply N.ltb_lt in X1, X2. auto.
Qed.
Lemma read_sections text out : ini_parse_string text = Ok (Some (map sec_of out)) -> sections_of text out.
Proof.
  intros H. apply sections_only in H as [secs [S E]]. enough (out = secs) by now subst. clear - E. revert secs E.
  induction out as [|[n es] out IH]; intros [|[n' es'] secs] E; try discriminate; [reflexivity|]. injection E as -> -> E. f_equal. auto.
Qed.
Lemma ascii_text s : asciib s = true -> utf8_text s.
Proof.
  intros H. apply bs_text_ov. unfold asciib in H. rewrite forallb_forall in H. apply Forall_forall. intros x Ix. apply H in Ix. apply andb_true_iff in Ix as [X1 X2].
  apply N.ltb_lt in X1, X2. auto.
Qed.
Lemma not_meaningful c v : asciib v = true -> ~ table_full c -> match parse_descriptor c v with Ok (c', None) => Nat.eqb (length (c_descs c')) (length (c_descs c)) && Nat.eqb (length (c_macros c')) (length (c_macros c)) && Nat.eqb (length (c_cmds c')) (length (c_cmds c)) | _ => false end = true ->
  ~ meaningful c v.
Proof.
  intros U NF H [d M]. apply ascii_text in U. unfold parse_descriptor in H. match type of H with context[parse_desc ?f c v] => pose proof (desc_complete_kinds f c c v d U eq_refl M) as R end. unfold reads in R.
  destruct (parse_desc _ c v) as [[c' [d'|]]| | |]; try discriminate. destruct R as [c2 [o [E F]]]; [discriminate|]. apply Ok_inj in E. injection E as <- <-.
  apply NF. specialize (F eq_refl). apply andb_true_iff in H as [H H3]. apply andb_true_iff in H as [H1 H2]. apply Nat.eqb_eq in H1, H2, H3.
  unfold table_full in *. now rewrite H1, H2, H3 in F.
Qed.
Lemma key_meaning c v d : asciib v = true -> match parse_descriptor c v with Ok (c', Some d') => d' = d /\ length (c_descs c') = length (c_descs c)
    /\ length (c_macros c') = length (c_macros c) /\ length (c_cmds c') = length (c_cmds c) | _ => False end ->
  means c v d.
Proof.
  intros U H. apply ascii_text in U. unfold parse_descriptor in H. destruct (parse_desc _ c v) as [[c' [d'|]]| | |] eqn:E; try contradiction.
  destruct H as [-> [H1 [H2 H3]]]. pose proof (desc_sound _ _ _ _ _ U E) as M. eapply means_wider; [|exact M]. apply parse_desc_grows in E. destruct E as [a [b [x ->]]].
  cbn in H1, H2, H3. rewrite !app_length in *. destruct a, b, x; cbn [length] in *; try lia. split; [reflexivity|]. rewrite !app_nil_r. split; [|split]; exists []; cbn; now rewrite app_nil_r.
Qed.
Lemma unaliased c k : forallb (fun n => negb (str_eqb (c_aliases c (N.of_nat n)) k)) (seq 0 256) = true -> forall x, ~ aliased c k x.
Proof.
  intros H x [L A]. rewrite forallb_forall in H. specialize (H (N.to_nat x)). rewrite Nnat.N2Nat.id, A in H.
  rewrite (proj2 (NotationProofs.str_eqb_eq _ _) eq_refl) in H. discriminate (H ltac:(apply in_seq; lia)).
Qed.
Definition C60_text : str := bs "[ids]" ++ nl ++ bs "*" ++ nl ++ bs "[global]" ++ nl ++ bs "macro_timeout = 300" ++ nl ++ bs "[aliases]" ++ nl ++ bs "capslock = hyper" ++ nl
  ++ bs "[main]" ++ nl ++ bs "hyper = layer(nav)" ++ nl ++ bs "a = b" ++ nl ++ bs "a = c" ++ nl
  ++ bs "[nav:C]" ++ nl ++ bs "j = down" ++ nl ++ bs "j = nosuchkey" ++ nl ++ bs "j+k = esc" ++ nl.
Definition C60_sections : sections :=
  [(bs "ids", [(bs "*", None)]); (bs "global", [(bs "macro_timeout", Some (bs "300"))]); (bs "aliases", [(bs "capslock", Some (bs "hyper"))]);
   (bs "main", [(bs "hyper", Some (bs "layer(nav)")); (bs "a", Some (bs "b")); (bs "a", Some (bs "c"))]);
   (bs "nav:C", [(bs "j", Some (bs "down")); (bs "j", Some (bs "nosuchkey")); (bs "j+k", Some (bs "esc"))])].
Definition C60_cfg : config := cfg_of C60_text.
Lemma C60_parses : config_parse C60_text = Ok (Some C60_cfg).
Proof. unfold C60_cfg, cfg_of. destruct (config_parse C60_text) as [[x|]| | |] eqn:E; [reflexivity|vm_compute in E; discriminate E..]. Qed.
(* a key of a layer with two bindings of which the second means nothing, with a chord and
   an alias beside it *)
Example C60_example : exists l, config_parse C60_text = Ok (Some C60_cfg) /\ sections_of C60_text C60_sections /\ orderly C60_sections /\ ~ table_full C60_cfg
  /\ layer_of C60_cfg (bs "nav") 6 /\ nth_error (c_layers C60_cfg) 6 = Some l
  /\ bindings (bs "nav") C60_sections = [(bs "j", bs "down"); (bs "j", bs "nosuchkey"); (bs "j+k", bs "esc")]
  /\ last_with (binds C60_cfg 36) (bindings (bs "nav") C60_sections) (Some (bs "j", bs "down"))
  /\ ly_keymap l 36 = DKey 108 0 /\ ly_chords l = [mkChord [36; 37] (DKey 1 0)] /\ ly_mods l = 8
  /\ c_aliases C60_cfg 58 = bs "hyper" /\ keys_of C60_cfg 0 58 = Some (DLayer 6) /\ keys_of C60_cfg 0 30 = Some (DKey 46 0) /\ c_macro_timeout C60_cfg = 300%Z.
Proof.
  assert (NF : ~ table_full C60_cfg) by (vm_compute; intuition discriminate).
  destruct (nth_error (c_layers C60_cfg) 6) as [l|] eqn:El; [|vm_compute in El; discriminate El].
  assert (X : match nth_error (c_layers C60_cfg) 6 with Some l => ly_keymap l 36 = DKey 108 0 /\ ly_chords l = [mkChord [36; 37] (DKey 1 0)] /\ ly_mods l = 8 | None => False end)
    by (vm_compute; auto).
  rewrite El in X. destruct X as [X1 [X2 X3]].
  exists l. split; [exact C60_parses|]. split; [apply read_sections; vm_compute; reflexivity|]. split; [apply orderlyb_ok; vm_compute; reflexivity|]. split; [exact NF|].
  split; [apply layer_of_iff; vm_compute; reflexivity|]. split; [reflexivity|]. split; [vm_compute; reflexivity|]. split.
  - exists [], [(bs "j", bs "nosuchkey"); (bs "j+k", bs "esc")]. split; [vm_compute; reflexivity|]. split.
    + split; [cbn; intuition discriminate|]. split.
      * right. split; [apply unaliased; vm_compute; reflexivity|left; vm_compute; reflexivity].
      * exists (DKey 108 0). apply key_meaning; vm_compute; auto.
    + intros b [<-|[<-|[]]] [B1 [_ B3]].
      * revert B3. apply not_meaningful; [vm_compute; reflexivity|exact NF|vm_compute; reflexivity].
      * apply B1. vm_compute. auto.
  - split; [exact X1|]. split; [exact X2|]. split; [exact X3|]. split; [vm_compute; reflexivity|]. split; [vm_compute; reflexivity|]. split; vm_compute; reflexivity.
Qed.
(* False: a binding of any layer is one of that layer. A layer with a dot in its name cannot
   have bindings. *)
Definition C60_dotted : str := bs "[a.b]" ++ nl ++ bs "x = y" ++ nl.
Definition C60_dotted_cfg : config := cfg_of C60_dotted.
Theorem C60_dotted_refuted : exists secs, config_parse C60_dotted = Ok (Some C60_dotted_cfg) /\ sections_of C60_dotted secs
  /\ layer_of C60_dotted_cfg (bs "a.b") 6 /\ bindings (bs "a.b") secs = [(bs "x", bs "y")] /\ binds C60_dotted_cfg 45 (bs "x", bs "y")
  /\ keys_of C60_dotted_cfg 6 45 = Some DNone.
Proof.
  exists [(bs "a.b", [(bs "x", Some (bs "y"))])]. split.
  { unfold C60_dotted_cfg, cfg_of. destruct (config_parse C60_dotted) as [[x|]| | |] eqn:E; [reflexivity|vm_compute in E; discriminate E..]. }
  split; [apply read_sections; vm_compute; reflexivity|]. split; [apply layer_of_iff; vm_compute; reflexivity|]. split; [vm_compute; reflexivity|].
  split; [|vm_compute; reflexivity]. split; [cbn; intuition discriminate|]. split.
  - right. split; [apply unaliased; vm_compute; reflexivity|left; vm_compute; reflexivity].
  - exists (DKey 21 0). apply key_meaning; vm_compute; auto.
Qed.
Definition C60_all := (C60_settings, C60_aliases, C60_layers, C60_unique, C60_binding, C60_chords, C60_example, C60_dotted_refuted).
Print Assumptions C60_all.
