(* C31 (live bindings), C33 (termination and failures of the parser), C39 (device ids),
   C40 (INI syntax), C41 (action calls). *)
From Coq Require Import String Lia.
From Verif Require Import Base Lib KeyTable Keys Types Str MacroParse Kbd Ini Config Match Steps Hist WfHist SpecNotation SpecText TextProofs
  ParseWf ParseFrame ParseTotal SpecBind BindProofs MatchProofs.
Local Open Scope list_scope.
Local Open Scope N_scope.
Local Notation length := List.length.

(* ---- C41 --------------------------------------------------------------------------- *)
(* A call with at most five arguments that are not empty is split into exactly these,
   whatever nested calls they contain. *)
Theorem C41_split : forall name items rest,
  items <> [] -> Forall item items -> ~ In 40 name -> (length (given items) <= 5)%nat ->
  parse_fn (call name items ++ rest) = Ok (Some (name, given items)).
Proof. exact (fun name items rest NE F N L => parse_fn_ok name items rest NE F N L). Qed.
(* Only such texts are accepted. *)
Theorem C41_only : forall s name args, parse_fn s = Ok (Some (name, args)) ->
  ~ In 40 name /\ exists items rest, items <> [] /\ Forall item items /\ s = call name items ++ rest /\ args = given items.
Proof. exact parse_fn_sound. Qed.
(* Every text is split, refused, or has too many arguments. *)
Theorem C41_total : forall s, parse_fn s = Crash CFnArgs \/ exists o, parse_fn s = Ok o.
Proof. exact parse_fn_total. Qed.
(* six arguments stop the program *)
Theorem C41_six_refuted : exists name items, items <> [] /\ Forall item items /\ ~ In 40 name
  /\ parse_fn (call name items) = Crash CFnArgs.
Proof.
  exists (bs "f"), (map (fun c => (0%nat, [c])) [97; 98; 99; 100; 101; 102]). split; [discriminate|]. split.
  - apply Forall_forall. intros p Hp. apply in_map_iff in Hp as [c [<- Hc]]. split; cbn [snd].
    + apply arg_char; [..|constructor]; intros; intros ->; repeat (destruct Hc as [Hc|Hc]; [discriminate|]); destruct Hc.
    + intros r E. injection E as ->. repeat (destruct Hc as [Hc|Hc]; [discriminate|]). destruct Hc.
  - split; [intros [G|[]]; discriminate|vm_compute; reflexivity].
Qed.
(* overload(shift, oneshot(alt)) *)
Example C41_ex : exists items, bs "overload(shift, oneshot(alt))" = call (bs "overload") items
  /\ Forall item items /\ given items = [bs "shift"; bs "oneshot(alt)"]
  /\ parse_fn (bs "overload(shift, oneshot(alt))") = Ok (Some (bs "overload", [bs "shift"; bs "oneshot(alt)"])).
Proof.
  assert (H : parse_fn (bs "overload(shift, oneshot(alt))") = Ok (Some (bs "overload", [bs "shift"; bs "oneshot(alt)"]))) by (vm_compute; reflexivity).
  exists [(0%nat, bs "shift"); (1%nat, bs "oneshot(alt)")]. split; [reflexivity|]. split; [|split; [reflexivity|exact H]].
  assert (P : forall s, (forall c, In c s -> c <> 40 /\ c <> 41 /\ c <> 92 /\ c <> 44) -> forall b, arg b s).
  { induction s as [|c s IH]; intros Hc b; [constructor|]. destruct (Hc c) as [H1 [H2 [H3 H4]]]; [now left|]. apply arg_char; auto. apply IH. intros; apply Hc; now right. }
  assert (A : arg false (bs "oneshot(alt)")).
  { change (bs "oneshot(alt)") with (bs "oneshot" ++ 40 :: bs "alt" ++ 41 :: []).
    assert (Q : forall s, (forall c, In c s -> c <> 40 /\ c <> 41 /\ c <> 92 /\ c <> 44) -> forall b t, arg b t -> arg b (s ++ t)).
    { induction s as [|c s IH]; intros Hc b t Ht; [easy|]. destruct (Hc c) as [H1 [H2 [H3 H4]]]; [now left|]. cbn [app]. apply arg_char; auto. apply IH; auto. intros; apply Hc; now right. }
    apply Q; [|apply arg_call; [|constructor]; apply P].
    all: intros c Hc; cbn in Hc; intuition (subst; discriminate). }
  apply Forall_cons; [|apply Forall_cons; [|constructor]]; split; cbn [snd]; try (intros r E; discriminate); [|exact A].
  apply P. intros c Hc; cbn in Hc; intuition (subst; discriminate).
Qed.
Definition C41_all := (C41_split, C41_only, C41_total, C41_six_refuted, C41_ex).
Print Assumptions C41_all.

(* ---- C40 --------------------------------------------------------------------------- *)
(* Every text has exactly one sequence of meaningful lines. *)
Theorem C40_lines : forall text, exists ls ts, lines_of text ls /\ meaning ls ts
  /\ forall ls' ts', lines_of text ls' -> meaning ls' ts' -> ts' = ts.
Proof.
  intros text. destruct (lines_of_total text) as [ls Hl]. destruct (meaning_total ls) as [ts Hm]. exists ls, ts. split; [easy|]. split; [easy|].
  intros ls' ts' Hl' Hm'. rewrite (lines_of_unique _ _ _ Hl' Hl) in Hm'. eapply meaning_unique; eauto.
Qed.
(* Comments, blank lines and white space around lines have no influence. *)
Theorem C40_layout : forall text text' ls ls' ts, lines_of text ls -> meaning ls ts -> lines_of text' ls' -> meaning ls' ts ->
  ini_parse_string text = ini_parse_string text'.
Proof.
  intros text text' ls ls' ts H1 H2 H3 H4. unfold ini_parse_string.
  rewrite (lines_of_lines _ _ H1), (lines_of_lines _ _ H3), (ini_meaning _ _ H2), (ini_meaning _ _ H4). reflexivity.
Qed.
(* A text consisting of sections within the limits gives these, in this order. *)
Theorem C40_parse : forall text secs, sections_of text secs -> (length secs <= 32)%nat ->
  Forall (fun p => N.of_nat (length (fst p)) < 256 /\ N.of_nat (length (snd p)) <= 1024) secs ->
  ini_parse_string text = Ok (Some (map sec_of secs)).
Proof.
  intros text secs [ls [ts [H1 [H2 H3]]]] L S. unfold ini_parse_string. rewrite (lines_of_lines _ _ H1), (ini_meaning _ _ H2).
  rewrite (ini_file _ _ H3 (meaning_tight _ _ H2) []); [reflexivity|cbn [length]; lia|exact S].
Qed.
(* What the parser delivers are the sections of the text. *)
Theorem C40_only : forall text out, ini_parse_string text = Ok (Some out) -> exists secs, sections_of text secs /\ out = map sec_of secs
  /\ forall secs', sections_of text secs' -> secs' = secs.
Proof.
  intros text out H. apply sections_only in H as [secs [H ->]]. exists secs. split; [easy|]. split; [easy|]. intros secs' H'. eapply sections_unique; eauto.
Qed.
(* Sections written down and read again. *)
Definition written_entry (e : str * str) : str := fst e ++ [32; 61] ++ (match snd e with [] => [] | v => 32 :: v end).
Definition written (secs : list (str * list (str * str))) : str :=
  join_lines (flat_map (fun s => header (fst s) :: map written_entry (snd s)) secs).
Definition writable_entry (e : str * str) : Prop :=
  let '(k, v) := e in
  k <> [] /\ tight k /\ tight v /\ ~ In 10 k /\ ~ In 10 v
  /\ (forall c r, k = c :: r -> ~ In 61 r /\ c <> 35) /\ ((forall r, k <> 91 :: r) \/ (forall r, v <> r ++ [93])).
Definition writable (s : str * list (str * str)) : Prop := ~ In 10 (fst s) /\ Forall writable_entry (snd s).
Lemma written_last k v : exists a c, written_entry (k, v) = a ++ [c] /\ (v = [] /\ c = 61 \/ exists u, v = u ++ [c]).
Proof.
  unfold written_entry. cbn [fst snd]. destruct v as [|x v].
  - exists (k ++ [32]), 61. rewrite <- app_assoc. auto.
  - destruct (exists_last (l := x :: v)) as [u [c E]]; [discriminate|]. exists (k ++ [32; 61; 32] ++ u), c. rewrite E, <- !app_assoc. cbn [app]. eauto.
Qed.
Lemma written_tight e : writable_entry e -> tight (written_entry e) /\ written_entry e <> [] /\ (forall r, written_entry e <> 35 :: r)
  /\ ~ In 10 (written_entry e) /\ entry (written_entry e) (fst e, Some (snd e)) /\ forall n, written_entry e <> header n.
Proof.
  destruct e as [k v]. intros [Hk [Tk [Tv [Nk [Nv [Hc Hh]]]]]]. cbn [fst snd]. destruct k as [|x k]; [easy|]. destruct (Hc x k eq_refl) as [Hc1 Hc2].
  split; [split|].
  - intros c r E. unfold written_entry in E. cbn [fst app] in E. injection E as -> _. now apply (proj1 Tk c k).
  - intros c r E. destruct (written_last (x :: k) v) as [a [c' [E' Hv]]]. rewrite E' in E. apply app_inj_tail in E as [_ <-].
    destruct Hv as [[_ ->]|[u ->]]; [unfold white; lia|]. now apply (proj2 Tv c' u).
  - split; [discriminate|]. split; [intros r E; unfold written_entry in E; cbn [fst app] in E; injection E as -> _; easy|]. split.
    { unfold written_entry. cbn [fst snd]. intros G. apply in_app_or in G as [G|G]; [auto|]. cbn [app] in G. destruct G as [G|[G|G]]; try discriminate.
      destruct v as [|y v]; [easy|]. destruct G as [G|G]; [discriminate|auto]. }
    split.
    + set (K := x :: k) in *.
      assert (E : written_entry (K, v) = K ++ [32] ++ 61 :: (match v with [] => [] | _ => [32] end) ++ v) by now destruct v.
      refine (eq_ind_r (fun l => entry l (K, Some v)) _ E). apply entry_value.
      * intros G. discriminate.
      * intros c r G. now apply (Hc c r).
      * intros c r G B. apply (proj2 Tk c r G). unfold SpecText.blank in B. unfold white. lia.
      * apply Forall_cons; [now left|constructor].
      * destruct v; [constructor|apply Forall_cons; [now left|constructor]].
      * intros c r G B. apply (proj1 Tv c r G). unfold SpecText.blank in B. unfold white. lia.
    + intros n E. destruct (written_last (x :: k) v) as [a [c' [E' Hv]]]. rewrite E' in E. unfold header in E.
      change (91 :: n ++ [93]) with ((91 :: n) ++ [93]) in E. apply app_inj_tail in E as [Ea ->].
      destruct Hv as [[_ G]|[u ->]]; [discriminate|]. destruct Hh as [Hh|Hh]; [|now destruct (Hh u)].
      unfold written_entry in E'. cbn [fst app] in E'. rewrite Ea in E'. cbn [app] in E'. injection E' as -> _. now destruct (Hh k).
Qed.
Theorem C40_written : forall secs, secs <> [] -> Forall writable secs ->
  sections_of (written secs) (map (fun s => (fst s, map (fun e => (fst e, Some (snd e))) (snd s))) secs).
Proof.
  intros secs NE F. set (ls := flat_map (fun s => header (fst s) :: map written_entry (snd s)) secs).
  assert (G : Forall (fun l => tight l /\ l <> [] /\ (forall r, l <> 35 :: r) /\ ~ In 10 l) ls).
  { unfold ls. clear NE. induction F as [|[n es] secs [H1 H2] F IH]; [constructor|]. cbn [flat_map fst snd app]. apply Forall_cons.
    - split; [apply tight_header|]. split; [discriminate|]. split; [discriminate|]. cbn [fst] in H1. intros [G|G]; [discriminate|].
      apply in_app_or in G as [G|[G|[]]]; [auto|discriminate].
    - apply Forall_app. split; [|exact IH]. clear - H2. cbn [snd] in H2. induction H2 as [|e es He H2 IH]; [constructor|]. cbn [map]. apply Forall_cons; [|exact IH].
      destruct (written_tight e He) as [A [B [C [D _]]]]. auto. }
  exists ls, ls. split.
  - split; [|split; [reflexivity|]].
    + unfold ls. destruct secs; [easy|discriminate].
    + eapply Forall_impl; [|exact G]. now intros l [_ [_ [_ H]]].
  - split.
    + clear NE F. revert G. generalize ls. induction 1 as [|l ls0 [A [B [C D]]] G IH]; [constructor|]. apply meaning_line; auto.
      exists [], []. rewrite app_nil_r. cbn. auto.
    + unfold ls. clear NE G ls. induction F as [|[n es] secs [H1 H2] F IH]; [constructor|]. cbn [flat_map map fst snd app]. apply file_section; [|exact IH].
      clear - H2. cbn [snd] in H2. induction H2 as [|e es He H2 IH]; [constructor|]. cbn [map]. constructor; [|exact IH].
      destruct (written_tight e He) as [_ [_ [_ [_ [A B]]]]]. auto.
Qed.
(* A line is a header whenever it starts with [ and ends with ]: the binding of [ to ] is lost. *)
Theorem C40_bracket_refuted : exists k v, k <> [] /\ tight k /\ tight v /\
  ini_parse_string (join_lines [header (bs "main"); written_entry (k, v)]) = Ok (Some [mkSec (bs "main") []; mkSec (bs " = ") []]).
Proof.
  exists (bs "["), (bs "]"). split; [discriminate|].
  assert (T : forall x, x = bs "[" \/ x = bs "]" -> tight x).
  { intros x Hx. split; intros c r E; destruct Hx as [->| ->].
    - injection E as <- _. unfold white. lia.
    - injection E as <- _. unfold white. lia.
    - change (bs "[") with ([] ++ [91]) in E. apply app_inj_tail in E as [_ <-]. unfold white. lia.
    - change (bs "]") with ([] ++ [93]) in E. apply app_inj_tail in E as [_ <-]. unfold white. lia. }
  split; [apply T; auto|]. split; [apply T; auto|]. vm_compute. reflexivity.
Qed.
Example C40_ex : let text := bs "# comment" ++ [10] ++ bs "  [main]  " ++ [10; 10] ++ bs "a = b" ++ [10] ++ bs " capslock" in
  ini_parse_string text = Ok (Some [mkSec (bs "main") [(bs "a", Some (bs "b")); (bs "capslock", None)]]).
Proof. vm_compute. reflexivity. Qed.
Example C40_ex_written : let secs := [(bs "ids", [(bs "k:0123", bs "x")]); (bs "main", [(bs "a", bs "overload(shift, b)"); (bs "[", bs "b")])] in
  Forall writable secs /\ written secs = bs "[ids]" ++ [10] ++ bs "k:0123 = x" ++ [10] ++ bs "[main]" ++ [10]
    ++ bs "a = overload(shift, b)" ++ [10] ++ bs "[ = b".
Proof.
  cbv zeta. split; [|reflexivity].
  assert (W : forall c, (33 <=? c) && (c <=? 126) = true -> ~ white c).
  { intros c H. apply andb_true_iff in H as [H1 H2]. apply N.leb_le in H1, H2. unfold white. lia. }
  assert (T : forall s, match s with [] => true | c :: _ => (33 <=? c) && (c <=? 126) end && match rev s with [] => true | c :: _ => (33 <=? c) && (c <=? 126) end = true -> tight s).
  { intros s H. apply andb_true_iff in H as [H1 H2]. split; intros c r E.
    - subst. auto.
    - subst. rewrite rev_app_distr in H2. cbn in H2. auto. }
  assert (N : forall x s, forallb (fun c => negb (c =? x)) s = true -> ~ In x s).
  { intros x s H G. rewrite forallb_forall in H. apply H in G. now rewrite N.eqb_refl in G. }
  assert (E : forall k v, k <> [] -> tight k -> tight v -> ~ In 10 k -> ~ In 10 v -> ~ In 61 k -> hd 0 k <> 35 ->
     (forall r, v <> r ++ [93]) -> writable_entry (k, v)).
  { intros k v H1 H2 H3 H4 H5 H6 H7 H8. split; [easy|]. split; [easy|]. split; [easy|]. split; [easy|]. split; [easy|]. split; [|now right].
    intros c r ->. split; [intros G; apply H6; now right|exact H7]. }
  assert (L : forall v, last v 0 <> 93 -> forall r, v <> r ++ [93]).
  { intros v H r ->. apply H. apply last_last. }
  apply Forall_cons; [|apply Forall_cons; [|constructor]]; (split; [apply N; reflexivity|]); cbn [snd];
    repeat (apply Forall_cons; [apply E; [discriminate|apply T; reflexivity|apply T; reflexivity|apply N; reflexivity|apply N; reflexivity|apply N; reflexivity|discriminate|apply L; discriminate]|]); constructor.
Qed.
Definition C40_all := (C40_lines, C40_layout, C40_parse, C40_only, C40_written, C40_bracket_refuted, C40_ex, C40_ex_written).
Print Assumptions C40_all.

(* ---- C39 --------------------------------------------------------------------------- *)
(* The configuration chosen for a device is the one the rules written in the ids sections
   prescribe; caps are the capability bits of the device. *)
Theorem C39_select : forall texts cs rss id caps,
  Forall2 (fun t c => config_parse t = Ok (Some c)) texts cs ->
  Forall2 (fun t rs => exists secs, sections_of t secs /\ rules (id_text secs) rs) texts rss ->
  let d := mkDev id (N.testbit caps 0 || N.testbit caps 1) (N.testbit caps 2) in
  chosen rss d (lookup_config_ent cs id (device_flags caps))
  /\ forall o, chosen rss d o -> o = lookup_config_ent cs id (device_flags caps).
Proof.
  intros texts cs rss id caps H1 H2 d.
  assert (F : Forall2 has_rules cs rss).
  { revert rss H2. induction H1 as [|t c texts cs Hc H1 IH]; intros rss H2; inversion H2 as [|? rs ? rss' [secs [S R]] H2']; subst; constructor.
    - eapply parse_rules; eauto.
    - now apply IH. }
  rewrite (caps_flags id). fold (mouse_caps caps) in d. pose proof (choose_ok cs rss d F) as G. split; [exact G|].
  intros o Ho. eapply chosen_unique; eauto.
Qed.
(* every ids section has a meaning *)
Theorem C39_rules : forall ls, exists rs, rules ls rs.
Proof. exact rules_total. Qed.
(* An explicit rule beats every wildcard; wildcards do not apply to mice. *)
Corollary C39_explicit_first : forall texts cs rss id caps i,
  Forall2 (fun t c => config_parse t = Ok (Some c)) texts cs ->
  Forall2 (fun t rs => exists secs, sections_of t secs /\ rules (id_text secs) rs) texts rss ->
  let d := mkDev id (N.testbit caps 0 || N.testbit caps 1) (N.testbit caps 2) in
  first (fun rs => explicit rs d) rss i -> lookup_config_ent cs id (device_flags caps) = Some i.
Proof.
  intros texts cs rss id caps i H1 H2 d H. destruct (C39_select texts cs rss id caps H1 H2) as [_ U]. symmetry. apply U. now left.
Qed.
(* The order of the lines matters: an exclusion after a matching id has no effect. *)
Theorem C39_late_exclusion_refuted : exists text c, config_parse text = Ok (Some c)
  /\ In (bs "-0123:4567") (lines text) /\ config_check_match c (bs "0123:4567") ID_KEYBOARD = 2.
Proof.
  set (text := bs "[ids]" ++ [10] ++ bs "0123" ++ [10] ++ bs "-0123:4567" ++ [10] ++ bs "[main]" ++ [10]).
  exists text, (cfg_of text). split; [|split].
  - apply parsesb_ok. vm_compute. reflexivity.
  - vm_compute. auto.
  - vm_compute. reflexivity.
Qed.
Example C39_ex : let t1 := bs "[ids]" ++ [10] ++ bs "*" ++ [10] ++ bs "-0123:9999" in
  let t2 := bs "[ids]" ++ [10] ++ bs "k:0123:4567" in
  map (fun p => lookup_config_ent [cfg_of t1; cfg_of t2] (bs (fst p)) (device_flags (snd p)))
    [("0123:4567:aa"%string, 4); ("0123:4567:aa"%string, 1); ("0123:9999:bb"%string, 4); ("abcd:0000:cc"%string, 5); ("abcd:0000:cc"%string, 2)]
  = [Some 1%nat; None; None; Some 0%nat; None].
Proof. vm_compute. reflexivity. Qed.
Definition C39_all := (C39_select, C39_rules, C39_explicit_first, C39_late_exclusion_refuted, C39_ex).
Print Assumptions C39_all.

(* ---- C33 --------------------------------------------------------------------------- *)
(* The parser ends for every text. *)
Theorem C33_terminates : forall text, config_parse text <> NoFuel.
Proof. exact parse_terminates. Qed.
(* A text without the dangers listed in the definition of safe_text gives a configuration. *)
Theorem C33_safe : forall text, safe_text text -> exists c, config_parse text = Ok (Some c).
Proof.
  intros text [secs [S [L [I F]]]]. destruct config_parse_from as [c0 [V [I0 [_ E0]]]]. rewrite E0. unfold config_parse_string.
  rewrite (C40_parse text secs S L).
  2:{ eapply Forall_impl; [|exact F]. now intros s [H1 [H2 _]]. }
  cbn [bind].
  destruct (parse_sections (map sec_of secs) c0 V I0) as [c' E].
  - assert (G : id_lines (map sec_of secs) = length (id_text secs)); [|lia]. clear. unfold id_lines, id_text.
    induction secs as [|[n es] secs IH]; [reflexivity|]. cbn [map fold_right flat_map sec_of sec_name sec_entries fst snd].
    rewrite app_length, <- IH. destruct (str_eqb n _); [now rewrite map_length|reflexivity].
  - apply Forall_map. eapply Forall_impl; [|exact F]. intros [n es] [_ [_ [H1 H2]]]. cbn [fst snd] in *. split; [split|]; cbn [sec_of sec_name sec_entries fst snd].
    + exact H1.
    + intros H. destruct (H2 H) as [A [B _]]. split; [exact A|exact B].
    + destruct (list_eq_dec N.eq_dec n (bs "ids")) as [->|Hn1]; [left; now left|].
      destruct (list_eq_dec N.eq_dec n (bs "aliases")) as [->|Hn2]; [left; right; now left|].
      destruct (list_eq_dec N.eq_dec n (bs "global")) as [->|Hn3]; [left; right; now right|]. right.
      destruct H2 as [_ [_ H2]]; [intros [G|[G|G]]; congruence|]. cbn [sec_name sec_entries]. eapply Forall_impl; [|exact H2]. intros [k [v|]] H; exact H.
  - exists c'. destruct (foldr_res pass1_section (map sec_of secs) c0) as [c1| | |]; cbn [bind] in *; try discriminate E. rewrite E. reflexivity.
Qed.

Definition dangers : list str :=
  [ (* six arguments *)
    bs "[main]" ++ [10] ++ bs "a = overload(a, b, c, d, e, f)";
    (* a character cut off *)
    bs "[main]" ++ [10] ++ bs "a = macro(" ++ [195; 41];
    (* no name *)
    bs "[]" ++ [10] ++ bs "a = b";
    (* more than 32 sections *)
    flat_map (fun i => bs "[a" ++ [97 + N.of_nat i] ++ bs "]" ++ [10]) (seq 0 33);
    (* more than 64 ids *)
    bs "[ids]" ++ [10] ++ flat_map (fun i => [33 + N.of_nat i; 98; 10]) (seq 0 66);
    (* nine constituents *)
    bs "[shift+alt+shift+alt+shift+alt+shift+alt+shift]";
    (* an option without value *)
    bs "[global]" ++ [10] ++ bs "macro_timeout";
    (* an alias without value *)
    bs "[aliases]" ++ [10] ++ bs "a";
    (* a long section name *)
    [91] ++ repeat 97 256 ++ [93] ].
Theorem C33_refuted : Forall (fun text => forall o, config_parse text <> Ok o) dangers.
Proof.
  assert (H : forallb (fun text => match config_parse text with Ok _ => false | _ => true end) dangers = true) by (vm_compute; reflexivity).
  rewrite forallb_forall in H. apply Forall_forall. intros text Ht o E. apply H in Ht. clear H. rewrite E in Ht. discriminate Ht.
Qed.

Example C33_ex : let text := bs "[ids]" ++ [10] ++ bs "*" ++ [10] ++ bs "[main]" ++ [10] ++ bs "a = overload(shift, macro(x 5ms y))" in
  exists c, config_parse text = Ok (Some c) /\ length (c_layers c) = 6%nat /\ length (c_macros c) = 1%nat.
Proof.
  intros text. exists (cfg_of text). split; [apply parsesb_ok; vm_compute; reflexivity|]. split; vm_compute; reflexivity.
Qed.
Example C33_ex_safe : safe_text (bs "[ids]" ++ [10] ++ bs "*" ++ [10] ++ bs "[main]" ++ [10] ++ bs "a = overload(shift, macro(x 5ms y))").
Proof.
  set (text := bs "[ids]" ++ _).
  destruct (sections_only text [mkSec (bs "ids") [(bs "*", None)]; mkSec (bs "main") [(bs "a", Some (bs "overload(shift, macro(x 5ms y))"))]]) as [secs [S E]];
    [vm_compute; reflexivity|].
  destruct secs as [|[n1 e1] [|[n2 e2] [|s secs]]]; try discriminate E. unfold sec_of in E. cbn [map fst snd] in E.
  injection E as <- <- <- <-. exists [(bs "ids", [(bs "*", None)]); (bs "main", [(bs "a", Some (bs "overload(shift, macro(x 5ms y))"))])].
  split; [exact S|]. split; [cbn; lia|]. split; [vm_compute; lia|]. clear S.
  apply Forall_cons; [|apply Forall_cons; [|constructor]]; (split; [vm_compute; reflexivity|]); (split; [vm_compute; discriminate|]); split; cbn [fst snd].
  - intros [G|G]; discriminate G.
  - intros H. exfalso. apply H. now left.
  - intros [G|G]; discriminate G.
  - intros _. split; [exists 109; split; [now left|discriminate]|]. split; [vm_compute; lia|]. apply Forall_cons; [|constructor].
    assert (A : forall l, forallb (fun c => c <? 128) l = true -> seven_bit l).
    { intros l H. apply Forall_forall. intros x Hx. rewrite forallb_forall in H. apply H in Hx. now apply N.ltb_lt in Hx. }
    split; [apply A; reflexivity|]. split; [apply A; reflexivity|]. split; [apply A; reflexivity|]. vm_compute. lia.
Qed.
Definition C33_all := (C33_terminates, C33_safe, C33_refuted, C33_ex, C33_ex_safe).
Print Assumptions C33_all.

(* ---- C31 --------------------------------------------------------------------------- *)
(* every expression has a target, a key and perhaps an action *)
Theorem C31_readable : forall e, exists ln s key val, target e ln s /\ entry s (key, val).
Proof.
  intros e. destruct (target_total e) as [ln [s H]]. destruct (entry_total s) as [[k v] G]. exists ln, s, k, v. auto.
Qed.
(* what the new action is, and what all bindings have in common *)
Definition bound (c c' : config) (val : option str) (i : nat) (d : desc) : Prop :=
  match val with
  | None => d = DNone
  | Some v => exists c1, parse_descriptor c v = Ok (c1, Some d)
      /\ c_descs c' = c_descs c1 /\ c_macros c' = c_macros c1 /\ c_cmds c' = c_cmds c1
  end /\ only_layer i c c' /\ tables_extended c c' /\ rest_same c c'.
(* A key: exactly the keys the name stands for get the action, in exactly that layer. *)
Theorem C31_key : forall k e k' ln s key val, kbd_eval k e = Ok (k', true) -> e <> bs "reset" ->
  target e ln s -> entry s (key, val) -> key <> [] -> ~ In 43 key ->
  exists i d, layer_of (k_cfg k) ln i /\ bound (k_cfg k) (k_cfg k') val i d /\ k' = set_k_cfg (k_cfg k') k
    /\ chords_of (k_cfg k') i = chords_of (k_cfg k) i
    /\ (forall code, stands_for (k_cfg k) key code -> keys_of (k_cfg k') i code = Some d)
    /\ (forall code, ~ stands_for (k_cfg k) key code -> keys_of (k_cfg k') i code = keys_of (k_cfg k) i code)
    /\ exists code, stands_for (k_cfg k) key code.
Proof.
  intros k e k' ln s key val H Hr T En Hk Hp. unfold kbd_eval in H. destruct (str_eqb e (bs "reset")) eqn:Er; [now apply str_eqb_true in Er|].
  bstep H r E. destruct r as [c' ok]. apply Ok_inj in H. injection H as <- ->. cbn [k_cfg set_k_cfg]. set (c := k_cfg k) in *.
  destruct (bind_ok _ _ _ _ _ _ _ E T En) as [i [l [d [l' [HL [El [Hd [TE [RS [EL Es]]]]]]]]]].
  exists i, d. split; [easy|]. unfold set_layer_entry in Es.
  assert (P : has_char 43 key = false).
  { unfold has_char. destruct (existsb _ key) eqn:X; [|easy]. apply existsb_exists in X as [x [X1 X2]]. apply N.eqb_eq in X2. now subst. }
  rewrite P in Es. cbv zeta in Es. set (hit := fun c0 : N => (c0 <? 256) && str_eqb (c_aliases c c0) key) in Es.
  assert (Hh : forall x, hit x = true <-> aliased c key x).
  { intros x. unfold hit, aliased. rewrite andb_true_iff, N.ltb_lt. split; intros [A B]; split; auto; [now apply str_eqb_true|subst; apply str_eqb_refl']. }
  assert (KE : exists f, l' = set_ly_keymap f l /\ (forall code, stands_for c key code -> f code = d) /\ (forall code, ~ stands_for c key code -> f code = ly_keymap l code)
    /\ exists code, stands_for c key code).
  { destruct (existsb _ _) eqn:X.
    - injection Es as <-. eexists. split; [reflexivity|]. apply existsb_exists in X as [n [X1 X2]].
      assert (Y : forall code, stands_for c key code -> hit code = true).
      { intros code [A|[A _]]; [now apply Hh|]. apply Hh in X2. now destruct (A _ X2). }
      split; [|split].
      + intros code A. specialize (Y _ A). unfold hit in Y. now rewrite Y.
      + intros code A. fold (hit code). destruct (hit code) eqn:Z; [|easy]. destruct A. left. now apply Hh.
      + exists (N.of_nat n). left. now apply Hh.
    - assert (NA : forall x, ~ aliased c key x).
      { intros x A. assert (Z : existsb (fun i => hit (N.of_nat i)) (seq 0 256) = true); [|exact (eq_true_false_abs _ Z X)].
        apply existsb_exists. exists (N.to_nat x). rewrite Nnat.N2Nat.id. split; [|now apply Hh]. destruct A as [A _]. apply in_seq. lia. }
      destruct (N.eqb_spec (lookup_keycode key) 0) as [|Hn]; [discriminate|]. injection Es as <-. eexists. split; [reflexivity|].
      split; [|split].
      + intros code [A|[_ A]]; [now destruct (NA code)|]. destruct (lookup_complete _ _ Hk A) as [<- _]. unfold fupd. now rewrite N.eqb_refl.
      + intros code A. unfold fupd. destruct (N.eqb_spec code (lookup_keycode key)) as [->|]; [|easy]. destruct A. right. split; [easy|]. now apply lookup_sound.
      + exists (lookup_keycode key). right. split; [easy|]. now apply lookup_sound. }
  destruct KE as [f [-> [F1 [F2 F3]]]].
  assert (Ei : nth_error (c_layers c') i = Some (set_ly_keymap f l)) by (rewrite EL; eapply nth_error_upd_same; eauto).
  assert (OL : only_layer i c c').
  { eapply (only_layer_upd _ _ _ l f (ly_chords l)); [exact El|]. rewrite EL. now destruct l. }
  split; [repeat split; auto; try apply OL; try apply TE|]. split; [reflexivity|]. unfold chords_of, keys_of. rewrite Ei, El.
  split; [reflexivity|]. split; [intros code A; cbn; now rewrite (F1 _ A)|]. split; [|exact F3]. intros code A. cbn. now rewrite (F2 _ A).
Qed.
(* A chord: one chord is added, or one gets a new action; no key changes. *)
Theorem C31_chord : forall k e k' ln s key val ns, kbd_eval k e = Ok (k', true) -> e <> bs "reset" ->
  target e ln s -> entry s (key, val) -> In 43 key -> pluses key ns ->
  exists i d codes chs chs', layer_of (k_cfg k) ln i /\ bound (k_cfg k) (k_cfg k') val i d /\ k' = set_k_cfg (k_cfg k') k
    /\ Forall2 table_name ns codes
    /\ chords_of (k_cfg k) i = Some chs /\ chords_of (k_cfg k') i = Some chs' /\ chord_change codes d chs chs'
    /\ forall code, keys_of (k_cfg k') i code = keys_of (k_cfg k) i code.
Proof.
  intros k e k' ln s key val ns H Hr T En Hk Hp. unfold kbd_eval in H. destruct (str_eqb e (bs "reset")) eqn:Er; [now apply str_eqb_true in Er|].
  bstep H r E. destruct r as [c' ok]. apply Ok_inj in H. injection H as <- ->. cbn [k_cfg set_k_cfg]. set (c := k_cfg k) in *.
  destruct (bind_ok _ _ _ _ _ _ _ E T En) as [i [l [d [l' [HL [El [Hd [TE [RS [EL Es]]]]]]]]]].
  unfold set_layer_entry in Es.
  assert (P : has_char 43 key = true) by (unfold has_char; apply existsb_exists; exists 43; split; [easy|reflexivity]).
  rewrite P, (pluses_tokens _ _ Hp) in Es. destruct (chord_codes ns []) as [keys|] eqn:Ec; [|discriminate].
  apply chord_codes_ok in Ec as [codes [-> Fc]]. cbn [app] in Es.
  assert (KE : exists chs', l' = set_ly_chords chs' l /\ chord_change codes d (ly_chords l) chs').
  { pose proof (lookup_chord_ok codes (ly_chords l) 0) as X. destruct (lookup_chord_from _ _ _) as [j|].
    - destruct X as [a [x [b [X1 [-> [X2 X3]]]]]]. injection Es as <-. eexists. split; [reflexivity|]. cbn [Nat.add]. rewrite X1.
      rewrite app_nth2, Nat.sub_diag by lia. cbn [nth]. rewrite upd_middle. now apply change_action.
    - destruct (Nat.ltb _ _); [|discriminate]. injection Es as <-. eexists. split; [reflexivity|]. now apply change_new. }
  destruct KE as [chs' [-> HC]].
  assert (Ei : nth_error (c_layers c') i = Some (set_ly_chords chs' l)) by (rewrite EL; eapply nth_error_upd_same; eauto).
  assert (OL : only_layer i c c').
  { eapply (only_layer_upd _ _ _ l (ly_keymap l) chs'); [exact El|]. rewrite EL. now destruct l. }
  exists i, d, codes, (ly_chords l), chs'. split; [easy|]. split; [repeat split; auto; try apply OL; try apply TE|]. split; [reflexivity|].
  split; [easy|]. unfold chords_of, keys_of. rewrite Ei, El. repeat split; auto.
Qed.
(* A failing bind changes no binding. *)
Theorem C31_fail : forall k e k', kbd_eval k e = Ok (k', false) ->
  k' = set_k_cfg (k_cfg k') k /\ c_layers (k_cfg k') = c_layers (k_cfg k) /\ tables_extended (k_cfg k) (k_cfg k') /\ rest_same (k_cfg k) (k_cfg k').
Proof.
  intros k e k' H. unfold kbd_eval in H. destruct (str_eqb e (bs "reset")); [discriminate|].
  bstep H r E. destruct r as [c' ok]. apply Ok_inj in H. injection H as <- ->. cbn [k_cfg set_k_cfg]. split; [reflexivity|].
  assert (G : grows (k_cfg k) c').
  { rewrite add_entry_unfold in E. destruct (N.leb _ _); [apply Ok_inj in E; injection E as <-; apply grows_refl|].
    destruct (split_entry e) as [l s]. destruct (parse_kvp s) as [key val]. destruct (config_get_layer_index _ _); [|apply Ok_inj in E; injection E as <-; apply grows_refl].
    bstep E r Er. destruct r as [c1 o].
    assert (G1 : grows (k_cfg k) c1) by (destruct val; [eapply parse_desc_grows; exact Er|apply Ok_inj in Er; injection Er as <- _; apply grows_refl]).
    destruct o; [|apply Ok_inj in E; injection E as <-; exact G1].
    destruct (set_layer_entry _ _ _ _); [discriminate|]. apply Ok_inj in E. injection E as <-. exact G1. }
  split; [now apply grows_layers in G|]. destruct G as [a [b [x ->]]]. split.
  - split; [now exists a|]. split; [now exists b|now exists x].
  - exists (c_layers (k_cfg k)), (c_descs (k_cfg k) ++ a), (c_macros (k_cfg k) ++ b), (c_cmds (k_cfg k) ++ x). reflexivity.
Qed.
(* After any history, reset brings back the configuration the keyboard was made with,
   and changes nothing else. *)
Theorem C31_reset : forall c k k' ok, reach (fun _ => True) c k -> kbd_eval k (bs "reset") = Ok (k', ok) -> k' = set_k_cfg c k /\ ok = true.
Proof.
  intros c k k' ok R H.
  assert (O : k_orig k = c).
  { clear H. revert k R. apply (reach_ind_steps (fun _ => True) c (fun k => k_orig k = c)); [reflexivity| |auto|]. - intros k0 k1 _ P E. apply prim_cfg in P as [_ ->]. exact E.
    - intros k0 k1 Ho E. destruct Ho; exact E. }
  unfold kbd_eval in H. change (str_eqb (bs "reset") (bs "reset")) with true in H. cbn iota in H. apply Ok_inj in H. injection H as <- <-. now rewrite O.
Qed.
(* The chord a+b+c is the first one containing a and b: the expression a+b = x changes it. *)
Definition c31_text : str := bs "[main]" ++ [10] ++ bs "a+b+c = y".
Theorem C31_chord_subset_refuted : exists k k', reach (fun _ => True) (cfg_of c31_text) k /\ kbd_eval k (bs "a+b = x") = Ok (k', true)
  /\ option_map (map ch_keys) (chords_of (k_cfg k') 0) = Some [[30; 48; 46]]
  /\ option_map (map ch_d) (chords_of (k_cfg k) 0) = Some [DKey 21 0]
  /\ option_map (map ch_d) (chords_of (k_cfg k') 0) = Some [DKey 45 0].
Proof.
  set (k := new_keyboard (cfg_of c31_text) 1). exists k.
  destruct (kbd_eval k (bs "a+b = x")) as [[k' ok]| | |] eqn:E; [|vm_compute in E; discriminate E..].
  assert (X : match kbd_eval k (bs "a+b = x") with Ok (k', ok) => ok = true /\ option_map (map ch_keys) (chords_of (k_cfg k') 0) = Some [[30; 48; 46]]
     /\ option_map (map ch_d) (chords_of (k_cfg k') 0) = Some [DKey 45 0] | _ => False end) by (vm_compute; auto).
  rewrite E in X. destruct X as [-> [X1 X2]]. exists k'. split; [apply reach_init; [lia|exact Logic.I]|]. split; [reflexivity|]. split; [exact X1|].
  split; [vm_compute; reflexivity|exact X2].
Qed.
(* An expression without key binds every key that has no alias. *)
Theorem C31_empty_key_refuted : exists k k', reach (fun _ => True) (cfg_of c31_text) k /\ kbd_eval k (bs " = x") = Ok (k', true)
  /\ map (keys_of (k_cfg k) 0) [30; 48] = [Some DNone; Some DNone]
  /\ map (keys_of (k_cfg k') 0) [30; 48] = [Some (DKey 45 0); Some (DKey 45 0)].
Proof.
  set (k := new_keyboard (cfg_of c31_text) 1). exists k.
  destruct (kbd_eval k (bs " = x")) as [[k' ok]| | |] eqn:E; [|vm_compute in E; discriminate E..].
  assert (X : match kbd_eval k (bs " = x") with Ok (k', ok) => ok = true
     /\ map (keys_of (k_cfg k') 0) [30; 48] = [Some (DKey 45 0); Some (DKey 45 0)] | _ => False end) by (vm_compute; auto).
  rewrite E in X. destruct X as [-> X1]. exists k'. split; [apply reach_init; [lia|exact Logic.I]|]. split; [reflexivity|].
  split; [vm_compute; reflexivity|exact X1].
Qed.
(* shift.a = b, then reset *)
Example C31_ex : let k := new_keyboard (cfg_of c31_text) 1 in
  target (bs "shift.a = b") (bs "shift") (bs "a = b") /\ entry (bs "a = b") (bs "a", Some (bs "b")) /\
  match kbd_eval k (bs "shift.a = b") with
  | Ok (k1, true) => keys_of (k_cfg k1) 2 30 = Some (DKey 48 0) /\ keys_of (k_cfg k) 2 30 = Some DNone
      /\ match kbd_eval k1 (bs "reset") with Ok (k2, true) => keys_of (k_cfg k2) 2 30 = Some DNone | _ => False end
  | _ => False
  end.
Proof.
  cbv zeta. split.
  - apply (target_layer (bs "shift") (bs "a = b")); [discriminate|intros G; cbn in G; intuition discriminate..].
  - split; [|vm_compute; auto].
    apply (entry_value (bs "a") [32] [32] (bs "b")); try discriminate.
    + intros c r E. injection E as <- <-. exact (fun f => f).
    + intros c r E. destruct r as [|x [|y r]]; [|discriminate..]. injection E as <-. intros [G|G]; discriminate.
    + apply Forall_cons; [now left|constructor].
    + apply Forall_cons; [now left|constructor].
    + intros c r E. injection E as <- _. intros [G|G]; discriminate.
Qed.
Definition C31_all := (C31_readable, C31_key, C31_chord, C31_fail, C31_reset, C31_chord_subset_refuted, C31_empty_key_refuted, C31_ex).
Print Assumptions C31_all.
