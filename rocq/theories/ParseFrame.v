(* What parsing an action or an entry can change, and that it ends. *)
From Coq Require Import String Lia.
From Verif Require Import Base Lib KeyTable Keys Types Str MacroParse Ini Config SpecText TextProofs ParseWf.
Local Open Scope list_scope.
Local Notation length := List.length.

(* the tables of nested actions, macros and commands grow, nothing else changes *)
Definition grows (c c' : config) : Prop := exists ds ms ks,
  c' = set_c_cmds (c_cmds c ++ ks) (set_c_macros (c_macros c ++ ms) (set_c_descs (c_descs c ++ ds) c)).
Lemma grows_refl c : grows c c.
Proof. exists [], [], []. rewrite !app_nil_r. now destruct c. Qed.
Lemma grows_trans a b c : grows a b -> grows b c -> grows a c.
Proof.
  intros [d1 [m1 [k1 ->]]] [d2 [m2 [k2 ->]]]. exists (d1 ++ d2), (m1 ++ m2), (k1 ++ k2). rewrite !app_assoc. reflexivity.
Qed.
Lemma grows_desc c d : grows c (set_c_descs (c_descs c ++ [d]) c).
Proof. exists [d], [], []. rewrite !app_nil_r. now destruct c. Qed.
Lemma grows_macro c d : grows c (set_c_macros (c_macros c ++ [d]) c).
Proof. exists [], [d], []. rewrite !app_nil_r. now destruct c. Qed.
Lemma grows_cmd c d : grows c (set_c_cmds (c_cmds c ++ [d]) c).
Proof. exists [], [], [d]. rewrite !app_nil_r. now destruct c. Qed.
Lemma grows_layers c c' : grows c c' -> c_layers c' = c_layers c /\ c_aliases c' = c_aliases c
  /\ c_ids c' = c_ids c /\ c_wildcard c' = c_wildcard c.
Proof. intros [d [m [k ->]]]. easy. Qed.

Section Grow.
Variable pd : config -> str -> res (config * option desc).
Hypothesis Hpd : forall c s c' o, pd c s = Ok (c', o) -> grows c c'.
Lemma parse_arg_grows c t a c' o : parse_arg pd c t a = Ok (c', o) -> grows c c'.
Proof.
  intros H. destruct t; cbn [parse_arg] in H; unfold parse_simple_arg in H.
  - destruct (Nat.leb _ _); [injection H as <- _; apply grows_refl|]. bstep H r E.
    destruct r; injection H as <- _; first [apply grows_refl|apply grows_macro].
  - destruct (str_eqb _ _); [injection H as <- _; apply grows_refl|].
    destruct (config_get_layer_index _ _); [|injection H as <- _; apply grows_refl].
    destruct (is_layout _); injection H as <- _; apply grows_refl.
  - destruct (config_get_layer_index _ _); [|injection H as <- _; apply grows_refl].
    destruct (_ && _); injection H as <- _; apply grows_refl.
  - injection H as <- _; apply grows_refl.
  - injection H as <- _; apply grows_refl.
  - bstep H r E. destruct r as [c1 [d|]]; apply Hpd in E.
    + destruct (N.leb _ _); injection H as <- _; [easy|]. eapply grows_trans; [exact E|apply grows_desc].
    + now injection H as <- _.
Qed.
Lemma parse_args_grows : forall ts c vals c' o, parse_args pd ts c vals = Ok (c', o) -> grows c c'.
Proof.
  induction ts as [|[t a] ts IH]; intros c vals c' o H; cbn [parse_args] in H.
  - injection H as <- _; apply grows_refl.
  - bstep H r E. destruct r as [c1 [v|]]; apply parse_arg_grows in E.
    + apply IH in H. eapply grows_trans; eauto.
    + now injection H as <- _.
Qed.
Lemma parse_body_grows c s c' o : parse_body pd c s = Ok (c', o) -> grows c c'.
Proof.
  intros H. unfold parse_body in H. destruct s as [|x s']; [injection H as <- _; apply grows_refl|].
  destruct (parse_key_sequence _) as [[code mods]|].
  { destruct (mod_layer_name code); [|injection H as <- _; apply grows_refl].
    destruct (config_get_layer_index _ _); [|discriminate]. injection H as <- _; apply grows_refl. }
  destruct (parse_command _) as [| |cmd].
  - bstep H o1 E1. destruct o1 as [| |m].
    + bstep H o2 E2. destruct o2 as [[fn args]|]; [|injection H as <- _; apply grows_refl].
      bstep H o3 E3. destruct o3 as [[fn2 args2]|]; [|injection H as <- _; apply grows_refl].
      unfold parse_call in H. destruct (find_action _ _) as [[op ts]|]; [|injection H as <- _; apply grows_refl].
      destruct (negb _); [injection H as <- _; apply grows_refl|].
      bstep H r E. destruct r as [c1 vals]. apply parse_args_grows in E. now injection H as <- _.
    + injection H as <- _; apply grows_refl.
    + destruct (Nat.leb _ _); injection H as <- _; first [apply grows_refl|apply grows_macro].
  - injection H as <- _; apply grows_refl.
  - destruct (Nat.leb _ _); injection H as <- _; first [apply grows_refl|apply grows_cmd].
Qed.
End Grow.
Lemma parse_desc_grows : forall f c s c' o, parse_desc f c s = Ok (c', o) -> grows c c'.
Proof.
  induction f as [|f IH]; intros c s c' o H; [discriminate|]. rewrite parse_desc_S in H.
  eapply parse_body_grows; eauto.
Qed.

(* ---- splitting off the layer name ------------------------------------------------- *)
Definition split_entry (exp : str) : str * str :=
  match find_char 46 exp 0 with
  | Some (S d) =>
      if match find_char 40 exp 0 with Some p => Nat.ltb (S d) p | None => true end
      then (firstn (S d) exp, skipn (S (S d)) exp)
      else (bs "main", exp)
  | _ => (bs "main", exp)
  end.
Lemma add_entry_unfold c exp : config_add_entry c exp =
  if N.leb 512 (N.of_nat (length exp)) then Ok (c, false)
  else
    let '(lname, s) := split_entry exp in
    let '(key, val) := parse_kvp s in
    match config_get_layer_index c lname with
    | None => Ok (c, false)
    | Some idx =>
        '(c1, d) <- (match val with None => Ok (c, Some DNone) | Some v => parse_descriptor c v end) ;;
        match d with
        | None => Ok (c1, false)
        | Some d =>
            match set_layer_entry (c_aliases c1) (nth idx (c_layers c1) zero_layer) key d with
            | None => Ok (c1, false)
            | Some l => Ok (set_c_layers (upd idx l (c_layers c1)) c1, true)
            end
        end
    end.
Proof. reflexivity. Qed.
Lemma find_char_spec c : forall s i j, find_char c s i = Some j ->
  exists a b, s = a ++ c :: b /\ ~ In c a /\ j = i + length a.
Proof.
  induction s as [|x s IH]; intros i j H; [discriminate|]. cbn [find_char] in H.
  destruct (N.eqb_spec x c) as [->|Hx].
  - injection H as <-. exists [], s. repeat split; auto.
  - apply IH in H. destruct H as [a [b [-> [N ->]]]]. exists (x :: a), b. split; [easy|].
    split; [intros [X|X]; [congruence|easy]|cbn; lia].
Qed.
Lemma find_char_none c : forall s i, find_char c s i = None -> ~ In c s.
Proof.
  induction s as [|x s IH]; intros i H; [easy|]. cbn [find_char] in H.
  destruct (N.eqb_spec x c) as [->|Hx]; [discriminate|]. intros [X|X]; [congruence|]. eapply IH; eauto.
Qed.

(* ---- termination -------------------------------------------------------------------- *)
Definition fine (f : nat) (s : str) : Prop := forall c, parse_desc f c s <> NoFuel.
Lemma bind_nf {A B} (x : res A) (g : A -> res B) : x <> NoFuel -> (forall a, x = Ok a -> g a <> NoFuel) -> bind x g <> NoFuel.
Proof. destruct x; cbn; intros H1 H2; auto; discriminate. Qed.
Lemma utf8_read_nf s : utf8_read_char s <> NoFuel.
Proof.
  unfold utf8_read_char. destruct s; [discriminate|].
  repeat match goal with |- context [if ?b then _ else _] => destruct b end; discriminate.
Qed.
Lemma utf8_strlen_nf : forall f s n, utf8_strlen_from f s n <> NoFuel.
Proof.
  induction f as [|f IH]; intros s n; cbn [utf8_strlen_from]; [discriminate|].
  apply bind_nf; [apply utf8_read_nf|]. intros [sz cp] _. destruct sz; [discriminate|apply IH].
Qed.
(* [X]: are aborts allowed?  NoFuel never is. *)
Definition within {A} (X : bool) (r : res A) : Prop :=
  match r with Ok _ => True | NoFuel => False | _ => X = true end.
Lemma within_bind {A B} X (x : res A) (g : A -> res B) :
  within X x -> (forall a, x = Ok a -> within X (g a)) -> within X (bind x g).
Proof. destruct x; cbn; auto. Qed.
Lemma within_ok {A} X (a : A) : within X (Ok a).
Proof. exact Logic.I. Qed.

Definition ascii (s : str) : Prop := Forall (fun c => (c < 128)%N) s.
Definition plain (X : bool) (s : str) : Prop := X = true \/ ascii s.
Lemma ascii_incl s t : (forall c, In c t -> In c s) -> ascii s -> ascii t.
Proof. unfold ascii. rewrite !Forall_forall. auto. Qed.
Lemma plain_incl X s t : (forall c, In c t -> In c s) -> plain X s -> plain X t.
Proof. intros H [->|A]; [now left|right; eapply ascii_incl; eauto]. Qed.
Lemma utf8_read_within X s : plain X s -> within X (utf8_read_char s).
Proof.
  intros H. unfold utf8_read_char. destruct s as [|b s]; [exact Logic.I|]. destruct H as [->|A].
  - repeat match goal with |- context [if ?b then _ else _] => destruct b end; exact Logic.I || reflexivity.
  - apply Forall_inv in A. cbv beta in A. destruct (N.leb_spec 240 b); [lia|]. destruct (N.leb_spec 224 b); [lia|].
    destruct (N.leb_spec 192 b); [lia|]. exact Logic.I.
Qed.
Lemma skipn_incl {A} n (s : list A) : forall c, In c (skipn n s) -> In c s.
Proof. intros c H. rewrite <- (firstn_skipn n s). apply in_or_app. now right. Qed.
Lemma utf8_strlen_within X : forall f s n, plain X s -> within X (utf8_strlen_from f s n).
Proof.
  induction f as [|f IH]; intros s n H; cbn [utf8_strlen_from]; [exact Logic.I|].
  apply within_bind; [now apply utf8_read_within|]. intros [sz cp] _. destruct sz; [exact Logic.I|]. apply IH.
  eapply plain_incl; [|exact H]. apply skipn_incl.
Qed.
Lemma parse_text_within X : forall f s m, plain X s -> within X (parse_text f s m).
Proof.
  induction f as [|f IH]; intros s m H; cbn [parse_text]; [exact Logic.I|].
  apply within_bind; [now apply utf8_read_within|]. intros [sz cp] _. destruct sz as [|sz]; [exact Logic.I|].
  cbv zeta.
  match goal with |- within _ (match ?n with None => _ | Some _ => _ end) => destruct n end; [|exact Logic.I].
  apply IH. eapply plain_incl; [|exact H]. apply skipn_incl.
Qed.
Lemma tokens_from_incl d : forall s cur t c, In t (tokens_from d s cur) -> In c t -> In c s \/ In c cur.
Proof.
  induction s as [|x s IH]; intros cur t c Ht Hc; cbn [tokens_from] in Ht.
  - destruct cur; [easy|]. destruct Ht as [<-|[]]. apply in_rev in Hc. now right.
  - destruct (x =? d)%N.
    + destruct cur as [|y cur].
      * apply (IH _ _ c) in Ht; [|easy]. destruct Ht as [Ht|[]]. left. now right.
      * destruct Ht as [<-|Ht]; [apply in_rev in Hc; now right|]. apply (IH _ _ c) in Ht; [|easy].
        destruct Ht as [Ht|[]]. left. now right.
    + apply (IH _ _ c) in Ht; [|easy]. destruct Ht as [Ht|[Ht|Ht]]; [left; now right|left; now left|now right].
Qed.
Lemma parse_tokens_within X : forall toks m, Forall (plain X) toks -> within X (parse_tokens toks m).
Proof.
  induction toks as [|t toks IH]; intros m F; cbn [parse_tokens]; [exact Logic.I|].
  apply Forall_cons_iff in F as [F1 F2]. apply within_bind.
  - unfold parse_token. destruct (parse_key_sequence t) as [[code mods]|]; [exact Logic.I|].
    destruct (has_char 43 t); [exact Logic.I|]. destruct (is_timeval t); [exact Logic.I|]. now apply parse_text_within.
  - intros [m'|] _; [now apply IH|exact Logic.I].
Qed.
Lemma macro_parse_within X s : plain X s -> within X (macro_parse s).
Proof.
  intros H. apply parse_tokens_within. apply Forall_forall. intros t Ht. eapply plain_incl; [|exact H].
  intros c Hc. destruct (tokens_from_incl _ _ _ _ _ Ht Hc) as [G|[]]. exact G.
Qed.
Lemma escape_ascii s : ascii s -> ascii (str_escape s).
Proof.
  remember (length s) as n eqn:Hn. revert s Hn. induction n as [n IH] using lt_wf_ind. intros s -> A.
  destruct s as [|c s]; [constructor|]. apply Forall_cons_iff in A as [A1 A2].
  assert (G : forall t, length t < S (length s) -> ascii t -> ascii (str_escape t)).
  { intros t Ht At. eapply IH; [|reflexivity|easy]. exact Ht. }
  assert (G0 : ascii (c :: str_escape s)) by (constructor; [easy|apply G; [lia|easy]]).
  destruct (N.eq_dec c 92) as [->|Hc].
  - destruct s as [|d s]; [constructor|]. apply Forall_cons_iff in A2 as [A2 A3].
    assert (Gd : forall e, (e < 128)%N -> ascii (e :: str_escape s)).
    { intros e He. constructor; [easy|]. apply G; [cbn; lia|easy]. }
    cbn [str_escape].
    assert (Gdef : ascii (92%N :: d :: str_escape s)) by (constructor; [lia|now apply Gd]).
    destruct d as [|p]; [exact Gdef|].
    repeat (destruct p as [p|p|]; try exact Gdef); apply Gd; lia.
  - cbn [str_escape]. destruct c as [|p]; [exact G0|].
    repeat (destruct p as [p|p|]; try exact G0). congruence.
Qed.
Lemma escape_plain X s : plain X s -> plain X (str_escape s).
Proof. intros [->|A]; [now left|right; now apply escape_ascii]. Qed.
Lemma removelast_incl {A} (s : list A) : forall c, In c (removelast s) -> In c s.
Proof.
  induction s as [|x s IH]; intros c H; [easy|]. cbn [removelast] in H. destruct s; [easy|].
  destruct H as [H|H]; [now left|right; now apply IH].
Qed.
Lemma macro_expr_within X s : plain X s -> within X (parse_macro_expression s).
Proof.
  intros H. unfold parse_macro_expression. destruct (N.leb _ _); [exact Logic.I|]. destruct (_ && _).
  - apply within_bind; [|intros [m|] _; exact Logic.I]. apply macro_parse_within, escape_plain.
    eapply plain_incl; [|exact H]. intros c Hc. apply skipn_incl in Hc. now apply removelast_incl.
  - apply within_bind.
    + destruct (parse_key_sequence s); [exact Logic.I|]. apply within_bind; [now apply utf8_strlen_within|]. intros; exact Logic.I.
    + intros v _. destruct v; [|exact Logic.I]. apply within_bind; [now apply macro_parse_within|]. intros [m|] _; exact Logic.I.
Qed.

(* splitting calls *)
Definition commas (s : str) : nat := count_occ N.eq_dec s 44%N.
Lemma commas_app a b : commas (a ++ b) = commas a + commas b.
Proof. apply count_occ_app. Qed.
Lemma commas_cons x a : commas (x :: a) = (if N.eq_dec x 44 then 1 else 0) + commas a.
Proof. unfold commas. cbn [count_occ]. destruct (N.eq_dec x 44); lia. Qed.
Lemma drop_commas s : commas (drop_while is_space32 s) = commas s.
Proof.
  destruct (drop_blanks_inv s) as [n [E _]]. rewrite E at 2. rewrite commas_app.
  assert (commas (repeat 32%N n) = 0) as ->; [|easy]. clear. induction n; [easy|]. cbn [repeat]. rewrite commas_cons.
  destruct (N.eq_dec 32 44); [discriminate|]. easy.
Qed.
Lemma scan_args_within X : forall f s args, length s < f ->
  (X = true \/ length args + commas s <= 4) -> within X (scan_args f s args).
Proof.
  induction f as [|f IH]; intros s args Hf Hc; [lia|]. cbn [scan_args].
  destruct (scan_arg s 0 []) as [[[a stop] r]|] eqn:Es; [|exact Logic.I].
  pose proof (scan_arg_shorter _ _ _ _ _ _ Es) as Hs.
  apply (scan_arg_sound (length s)) in Es; [|lia]. destruct Es as [u [-> [E [L St]]]]. cbn [rev app] in *.
  pose proof (drop_while_le is_space32 r) as Hd.
  assert (Hnext : stop <> 41%N -> commas (drop_while is_space32 r) + S (commas u) = commas s).
  { intros Hn. destruct St as [->| ->]; [easy|]. rewrite drop_commas, E, commas_app, commas_cons.
    destruct (N.eq_dec 44 44); [|easy]. lia. }
  assert (Hg : forall args', (X = true \/ length args' <= S (length args)) ->
     within X (if (stop =? 41)%N then Ok (Some args') else scan_args f (drop_while is_space32 r) args')).
  { intros args' Ha. destruct (N.eqb_spec stop 41); [exact Logic.I|]. apply IH; [lia|].
    specialize (Hnext n). destruct Hc; [now left|]. destruct Ha; [now left|]. right. lia. }
  destruct u as [|x u].
  - cbn [bind]. apply Hg. right. lia.
  - destruct (Nat.ltb_spec (length args) 5); cbn [bind].
    + apply Hg. right. rewrite app_length. cbn. lia.
    + destruct Hc as [->|Hc]; [easy|lia].
Qed.
Lemma split_paren_within X s : (X = true \/ commas s <= 4) -> within X (parse_fn s).
Proof.
  intros Hc. unfold parse_fn. destruct (split_at_paren s []) as [[n r]|] eqn:Ep; [|exact Logic.I].
  apply split_paren_sound in Ep. destruct Ep as [u [-> [-> Hn]]].
  apply within_bind; [|intros [args|] _; exact Logic.I]. apply scan_args_within.
  - pose proof (drop_while_le is_space32 r). rewrite app_length. cbn. lia.
  - destruct Hc as [->|Hc]; [now left|right]. rewrite drop_commas. rewrite commas_app, commas_cons in Hc. cbn. lia.
Qed.
Definition balanced_args (args : list str) : Prop := Forall (fun a => item (0, a) /\ a <> []) args.
Lemma given_in items a : In a (given items) -> exists n, In (n, a) items /\ a <> [].
Proof.
  unfold given. intros H. apply filter_In in H as [H1 H2]. apply in_map_iff in H1 as [[n b] [E H1]]. cbn in E. subst b.
  exists n. split; [easy|]. now destruct a.
Qed.
Lemma listed_split : forall items n a, In (n, a) items -> exists x y, listed items = x ++ a ++ y.
Proof.
  induction items as [|[m b] items IH]; intros n a H; [easy|]. destruct items as [|it items].
  - destruct H as [H|[]]. injection H as -> ->. exists (repeat 32%N n), []. now rewrite app_nil_r.
  - rewrite listed_cons by easy. destruct H as [H|H].
    + injection H as -> ->. exists (repeat 32%N n), (44%N :: listed (it :: items)). reflexivity.
    + destruct (IH n a H) as [x [y E]]. exists (repeat 32%N m ++ b ++ 44%N :: x), y. rewrite E. now rewrite <- !app_assoc.
Qed.
Lemma parse_fn_sound s fn args : parse_fn s = Ok (Some (fn, args)) ->
  ~ In 40%N fn /\ exists items rest, items <> [] /\ Forall item items /\ s = call fn items ++ rest /\ args = given items.
Proof.
  intros H. unfold parse_fn in H. destruct (split_at_paren s []) as [[n r]|] eqn:Ep; [|discriminate].
  apply split_paren_sound in Ep. destruct Ep as [u [-> [-> Hn]]]. bstep H o E. destruct o as [a|]; [|discriminate].
  injection H as <- <-. split; [easy|]. destruct (drop_blanks_inv r) as [m [Er Nr]].
  apply scan_args_sound in E; [|easy]. destruct E as [items [rest [NE [F [Hh [E ->]]]]]].
  destruct items as [|[z b] items]; [easy|]. cbn in Hh. injection Hh as ->.
  exists ((m, b) :: items), rest. split; [easy|]. apply Forall_cons_iff in F as [F1 F2]. split; [now constructor|].
  split; [|now rewrite !given_cons]. unfold call. cbn [rev app]. rewrite <- !app_assoc. f_equal. cbn [app]. f_equal.
  rewrite <- app_assoc. cbn [app]. rewrite Er, E.
  destruct items; cbn [listed repeat app]; now rewrite <- ?app_assoc.
Qed.
Lemma parse_fn_ok fn items rest : items <> [] -> Forall item items -> ~ In 40%N fn -> length (given items) <= 5 ->
  parse_fn (call fn items ++ rest) = Ok (Some (fn, given items)).
Proof.
  intros NE F Hn L. unfold parse_fn, call. rewrite <- !app_assoc. cbn [app]. rewrite <- !app_assoc. cbn [app].
  rewrite split_paren_over by easy. cbn [rev app]. rewrite scan_args_ok; auto.
  rewrite !app_length. cbn [length]. rewrite !app_length. pose proof (listed_length items). cbn [length]. lia.
Qed.
Lemma parse_fn_arg s fn args a : parse_fn s = Ok (Some (fn, args)) -> In a args ->
  (exists x y, s = x ++ a ++ y /\ 2 <= length x + length y) /\ item (0, a) /\ a <> [].
Proof.
  intros H Ha. apply parse_fn_sound in H. destruct H as [_ [items [rest [NE [F [-> ->]]]]]].
  apply given_in in Ha as [n [Ha N]]. split.
  - destruct (listed_split _ _ _ Ha) as [x [y E]]. unfold call. rewrite E.
    exists (fn ++ 40%N :: x), (y ++ 41%N :: rest). rewrite <- !app_assoc. cbn [app]. rewrite <- !app_assoc. split; [easy|].
    rewrite !app_length. cbn [length]. lia.
  - split; [|easy]. rewrite Forall_forall in F. apply (F (n, a)) in Ha. exact Ha.
Qed.

Definition resolve (s : str) : res (option (str * list str)) :=
  o <- parse_fn s ;;
  match o with
  | None => Ok None
  | Some (fn, args) =>
      if str_eqb fn (bs "lettermod") then
        match args with
        | [a0; a1; a2; a3] => parse_fn (lettermod_text a0 a1 a2 a3)
        | _ => Ok None
        end
      else Ok (Some (fn, args))
  end.
Lemma body_resolve pd c s : parse_body pd c s =
  match s with
  | [] => Ok (c, Some DNone)
  | _ =>
      match parse_key_sequence s with
      | Some (code, mods) =>
          match mod_layer_name code with
          | Some ln => match config_get_layer_index c ln with Some i => Ok (c, Some (DLayer i)) | None => Crash CModLayer end
          | None => Ok (c, Some (DKey code mods))
          end
      | None =>
          match parse_command s with
          | POk cmd =>
              if Nat.leb 64 (length (c_cmds c)) then Ok (c, None)
              else Ok (set_c_cmds (c_cmds c ++ [cmd]) c, Some (DCommand (length (c_cmds c))))
          | PError => Ok (c, None)
          | PInvalid =>
              r <- parse_macro_expression s ;;
              match r with
              | POk m =>
                  if Nat.leb 256 (length (c_macros c)) then Ok (c, None)
                  else Ok (set_c_macros (c_macros c ++ [m]) c, Some (DMacro (length (c_macros c))))
              | PError => Ok (c, None)
              | PInvalid => o <- resolve s ;; match o with None => Ok (c, None) | Some (fn, args) => parse_call pd c fn args end
              end
          end
      end
  end.
Proof.
  unfold parse_body, resolve. destruct s as [|x s]; [easy|]. destruct (parse_key_sequence _) as [[? ?]|]; [easy|].
  destruct (parse_command _); try easy. destruct (parse_macro_expression _) as [r| | |]; cbn [bind]; try easy. destruct r; try easy.
  destruct (parse_fn _) as [o| | |]; cbn [bind]; try easy. destruct o as [[fn args]|]; cbn [bind]; try easy.
Qed.
Lemma grows_mods X c c' : grows c c' -> (X = true \/ has_mods c) -> (X = true \/ has_mods c').
Proof.
  intros G [->|H]; [now left|right]. destruct G as [d [m [k ->]]]. exact H.
Qed.
Lemma simple_arg_within X c t a : plain X a -> within X (parse_simple_arg c t a).
Proof.
  intros H. destruct t; cbn [parse_simple_arg]; try exact Logic.I.
  - destruct (Nat.leb _ _); [exact Logic.I|]. apply within_bind; [now apply macro_expr_within|]. intros r _; destruct r; exact Logic.I.
  - destruct (str_eqb _ _); [exact Logic.I|]. destruct (config_get_layer_index _ _); [|exact Logic.I]. destruct (is_layout _); exact Logic.I.
  - destruct (config_get_layer_index _ _); [|exact Logic.I]. destruct (_ && _); exact Logic.I.
Qed.
Lemma body_within X f c s : (X = true \/ has_mods c) -> plain X s -> within X (resolve s) ->
  (forall fn args, resolve s = Ok (Some (fn, args)) -> forall a, In a args ->
     plain X a /\ forall c, (X = true \/ has_mods c) -> within X (parse_desc f c a)) ->
  within X (parse_desc (S f) c s).
Proof.
  intros M A R Hr. rewrite parse_desc_S, body_resolve. destruct s as [|x s']; [exact Logic.I|]. set (s := x :: s') in *.
  destruct (parse_key_sequence s) as [[code mods]|].
  { destruct (mod_layer_name code) as [n|] eqn:En; [|exact Logic.I]. destruct M as [->|M].
    - destruct (config_get_layer_index _ _); [exact Logic.I|reflexivity].
    - destruct (M n (mod_layer_in _ _ En)) as [i [-> _]]. exact Logic.I. }
  destruct (parse_command s); [|exact Logic.I|destruct (Nat.leb _ _); exact Logic.I].
  apply within_bind; [now apply macro_expr_within|]. intros r _. destruct r; [|exact Logic.I|destruct (Nat.leb _ _); exact Logic.I].
  apply within_bind; [exact R|]. intros o Eo. destruct o as [[fn args]|]; [|exact Logic.I].
  specialize (Hr fn args Eo). unfold parse_call. destruct (find_action actions fn) as [[oper ts]|]; [|exact Logic.I].
  destruct (negb _); [exact Logic.I|]. apply within_bind; [|intros [c' v] _; exact Logic.I].
  assert (G : forall l c vals, (forall t a, In (t, a) l -> In a args) -> (X = true \/ has_mods c) -> within X (parse_args (parse_desc f) l c vals)).
  { induction l as [|[t a] l IH]; intros c0 vals Hin M0; cbn [parse_args]; [exact Logic.I|].
    destruct (Hr a (Hin t a (or_introl eq_refl))) as [Pa Da].
    apply within_bind.
    - destruct t; cbn [parse_arg]; try now apply simple_arg_within.
      apply within_bind; [now apply Da|]. intros [c1 [d|]] _; [|exact Logic.I]. destruct (N.leb _ _); exact Logic.I.
    - intros [c1 [v|]] E; [|exact Logic.I]. apply IH; [intros t' a' H'; apply (Hin t'); now right|].
      eapply grows_mods; [|exact M0]. eapply parse_arg_grows; [|exact E]. intros; eapply parse_desc_grows; eauto. }
  apply G; [|easy]. intros t a H. apply in_rev in H. now apply in_combine_r in H.
Qed.
(* lettermod *)
Lemma item_app_call (fn : str) items : Forall (fun c => c <> 40 /\ c <> 41 /\ c <> 92 /\ c <> 44)%N fn -> fn <> [] ->
  Forall item items -> (forall r, fn <> 32%N :: r) -> item (1, call fn items).
Proof.
  intros Hf NE F Hs. split; cbn [snd].
  - unfold call. rewrite <- (app_nil_r [41%N]).
    assert (G : forall items, Forall item items -> arg true (listed items)).
    { clear. assert (up : forall u, arg false u -> arg true u).
      { assert (up' : forall b u, arg b u -> arg true u). { induction 1; [constructor|apply arg_char; auto; discriminate|now apply arg_escape|now apply arg_call]. }
        intros u; apply up'. }
      assert (cat : forall b u, arg b u -> forall v, arg b v -> arg b (u ++ v)).
      { induction 1; intros v Hv; cbn [app]; [easy|apply arg_char; auto|apply arg_escape; auto|].
        rewrite <- app_assoc. cbn [app]. apply arg_call; auto. }
      assert (sp : forall n, arg true (repeat 32%N n)). { induction n; cbn [repeat]; [constructor|]. apply arg_char; auto; discriminate. }
      induction items as [|[n a] items IH]; intros F; [constructor|]. apply Forall_cons_iff in F as [[F1 _] F2]. cbn [snd] in F1.
      destruct items as [|it items]; [cbn [listed]; apply cat; auto|]. rewrite listed_cons by easy.
      apply cat; auto. apply cat; auto. apply arg_char; try discriminate. now apply IH. }
    clear NE Hs. induction Hf as [|c fn [H1 [H2 [H3 H4]]] Hf IH]; cbn [app].
    + apply arg_call; [now apply G|constructor].
    + apply arg_char; auto.
  - intros r E. unfold call in E. destruct fn as [|c fn]; [easy|]. cbn [app] in E. injection E as -> E. now destruct (Hs fn).
Qed.
Definition ov_items (a0 a1 a3 : str) : list (nat * str) := [(0, a0); (1, a1); (1, a3)].
Definition ov_text (a0 a1 a3 : str) : str := call (bs "overloadt2") (ov_items a0 a1 a3).
Lemma lettermod_text_eq a0 a1 a2 a3 :
  lettermod_text a0 a1 a2 a3 = firstn (Z.to_nat 1023) (call (bs "overloadi") [(0, a1); (1, ov_text a0 a1 a3); (1, a2)]).
Proof.
  unfold lettermod_text. f_equal. unfold call, ov_text, call, ov_items. cbn [listed repeat].
  repeat (rewrite <- !app_assoc; cbn [app]). reflexivity.
Qed.
Lemma given_full items : Forall (fun p => snd p <> []) items -> given items = map snd items.
Proof.
  intros F. induction F as [|[n a] items H F IH]; [reflexivity|]. rewrite given_cons, IH. cbn [map snd] in *. now destruct a.
Qed.
Lemma lettermod_args a0 a1 a2 a3 fn args : balanced_args [a0; a1; a2; a3] ->
  parse_fn (lettermod_text a0 a1 a2 a3) = Ok (Some (fn, args)) -> args = [a1; ov_text a0 a1 a3; a2].
Proof.
  intros B H. rewrite lettermod_text_eq in H. apply parse_fn_sound in H. destruct H as [Hn [items [rest [NE [F [E ->]]]]]].
  repeat (apply Forall_cons_iff in B as [[? ?] B]).
  set (L := call (bs "overloadi") [(0, a1); (1, ov_text a0 a1 a3); (1, a2)]) in *.
  set (its := [(0, a1); (1, ov_text a0 a1 a3); (1, a2)]) in *.
  assert (Ov : item (1, ov_text a0 a1 a3)).
  { apply item_app_call.
    - vm_compute. repeat constructor; discriminate.
    - discriminate.
    - apply Forall_cons; [exact H|]. apply Forall_cons; [exact H1|]. apply Forall_cons; [exact H5|]. constructor.
    - discriminate. }
  assert (F2 : Forall item its) by (apply Forall_cons; [exact H1|]; apply Forall_cons; [exact Ov|]; apply Forall_cons; [exact H3|]; constructor).
  assert (G2 : given its = [a1; ov_text a0 a1 a3; a2]).
  { rewrite given_full; [reflexivity|]. repeat constructor; cbn [snd]; auto. unfold ov_text, call. discriminate. }
  assert (P1 : parse_fn L = Ok (Some (bs "overloadi", given its))).
  { rewrite <- (app_nil_r L). apply parse_fn_ok; auto; [discriminate| |rewrite G2; cbn; lia].
    vm_compute. intros X. repeat destruct X as [X|X]; try discriminate X. exact X. }
  assert (P2 : L = call fn items ++ rest ++ skipn (Z.to_nat 1023) L).
  { rewrite <- (firstn_skipn (Z.to_nat 1023) L) at 1. rewrite E. now rewrite <- app_assoc. }
  rewrite P2 in P1.
  assert (Hl : length (given items) <= 5 \/ 5 < length (given items)) by lia. destruct Hl as [Hl|Hl].
  - rewrite parse_fn_ok in P1; auto. injection P1 as _ P1. now rewrite P1, G2.
  - exfalso. assert (C : forall items args fuel rest, items <> [] -> Forall item items -> length items <= fuel ->
      length args <= 5 -> 5 < length args + length (given items) ->
      scan_args fuel (drop_while is_space32 (listed items ++ 41%N :: rest)) args = Crash CFnArgs).
    { clear. induction items as [|[n a] items IH]; intros args fuel rest NE F Hf La Hl; [easy|].
      destruct fuel as [|fuel]; [cbn in Hf; lia|]. apply Forall_cons_iff in F as [[A Nb] F]. cbn [snd] in A, Nb.
      rewrite given_cons in Hl. cbn [length] in Hf.
      set (stop := match items with [] => 41%N | _ => 44%N end).
      set (tl := match items with [] => rest | _ => listed items ++ 41%N :: rest end).
      assert (Et : drop_while is_space32 (listed ((n, a) :: items) ++ 41%N :: rest) = a ++ stop :: tl).
      { destruct items as [|it items].
        - cbn [listed]. rewrite <- app_assoc. apply drop_blanks. intros r.
          destruct a as [|c a']; [discriminate|]. intros X. injection X as -> _. now destruct (Nb a').
        - rewrite listed_cons by easy. rewrite <- !app_assoc. cbn [app]. apply drop_blanks. intros r.
          destruct a as [|c a']; [discriminate|]. intros X. injection X as -> _. now destruct (Nb a'). }
      rewrite Et. cbn [scan_args]. rewrite (scan_arg_over false a A O (stop :: tl) []) by easy.
      assert (Es : scan_arg (stop :: tl) 0 (rev a ++ []) = Some (a, stop, tl)).
      { rewrite app_nil_r. unfold stop. destruct items; cbn [scan_arg]; cbn; now rewrite rev_involutive. }
      rewrite Es. destruct a as [|x a].
      - cbn [bind]. destruct items as [|it items]; [cbn in Hl; lia|]. unfold stop, tl. cbn [N.eqb Pos.eqb].
        change (44 =? 41)%N with false. cbn iota. apply IH; auto; [discriminate|lia].
      - destruct (Nat.ltb_spec (length args) 5); cbn [bind]; [|easy]. cbn [app length] in Hl.
        destruct items as [|it items]; [cbn in Hl; lia|]. unfold stop, tl. change (44 =? 41)%N with false. cbn iota.
        apply IH; auto; [discriminate|lia| |]; rewrite app_length; cbn [length]; lia. }
    unfold parse_fn, call in P1. rewrite <- !app_assoc in P1. cbn [app] in P1. rewrite <- !app_assoc in P1. cbn [app] in P1.
    rewrite split_paren_over in P1 by easy. cbn [rev app] in P1. rewrite C in P1; [discriminate|auto..|cbn; lia|cbn [length]; lia].
    rewrite !app_length. cbn [length]. rewrite !app_length. pose proof (listed_length items). cbn [length]. lia.
Qed.
Lemma scan_arg_ext t : forall n c p acc a stop r, length c <= n -> scan_arg c p acc = Some (a, stop, r) ->
  scan_arg (c ++ t) p acc = Some (a, stop, r ++ t).
Proof.
  induction n as [|n IH]; intros c p acc a stop r Hn H.
  { destruct c; [discriminate|cbn in Hn; lia]. }
  destruct c as [|x c]; [discriminate|]. cbn [scan_arg app] in *. cbn [length] in Hn.
  destruct (x =? 92)%N.
  { destruct c as [|y c]; [discriminate|]. cbn [app length] in *. apply IH; [lia|easy]. }
  destruct (x =? 40)%N; [apply IH; [lia|easy]|]. destruct (x =? 41)%N.
  { destruct p; [injection H as <- <- <-; reflexivity|apply IH; [lia|easy]]. }
  destruct (_ && _); [injection H as <- <- <-; reflexivity|apply IH; [lia|easy]].
Qed.
Lemma drop_while_ext p t r : drop_while p r <> [] -> drop_while p (r ++ t) = drop_while p r ++ t.
Proof. induction r as [|x r IH]; cbn [drop_while app]; [easy|]. destruct (p x); auto. Qed.
Lemma scan_args_ext t x : forall f s args, scan_args f s args = Crash x -> forall f', f <= f' -> scan_args f' (s ++ t) args = Crash x.
Proof.
  induction f as [|f IH]; intros s args H f' Hf; [discriminate|]. destruct f' as [|f']; [lia|]. cbn [scan_args] in *.
  destruct (scan_arg s 0 []) as [[[a stop] r]|] eqn:Es; [|discriminate].
  rewrite (scan_arg_ext t _ _ _ _ _ _ _ (le_n _) Es).
  assert (G : forall args', (if (stop =? 41)%N then Ok (Some args') else scan_args f (drop_while is_space32 r) args') = Crash x ->
     (if (stop =? 41)%N then Ok (Some args') else scan_args f' (drop_while is_space32 (r ++ t)) args') = Crash x).
  { intros args' G. destruct (stop =? 41)%N; [discriminate|]. rewrite drop_while_ext; [apply IH; [easy|lia]|].
    intros E. rewrite E in G. destruct f; discriminate. }
  destruct a as [|y a]; [now apply G|]. destruct (Nat.ltb _ _); cbn [bind] in *; [now apply G|easy].
Qed.
Lemma parse_fn_ext s t x : parse_fn s = Crash x -> parse_fn (s ++ t) = Crash x.
Proof.
  unfold parse_fn. intros H. destruct (split_at_paren s []) as [[n r]|] eqn:Ep; [|discriminate].
  apply split_paren_sound in Ep. destruct Ep as [u [-> [-> Hn]]]. rewrite <- app_assoc. cbn [app].
  rewrite split_paren_over by easy. cbn [rev app bind] in *.
  destruct (scan_args (S (length (u ++ 40%N :: r))) (drop_while is_space32 r) []) as [o| | |] eqn:E; cbn [bind] in H; try discriminate H.
  injection H as ->. rewrite drop_while_ext.
  - rewrite (scan_args_ext t _ _ _ _ E); [easy|]. rewrite !app_length. cbn [length]. rewrite app_length. lia.
  - intros Z. rewrite Z in E. discriminate.
Qed.
Lemma lettermod_full a0 a1 a2 a3 : balanced_args [a0; a1; a2; a3] ->
  parse_fn (call (bs "overloadi") [(0, a1); (1, ov_text a0 a1 a3); (1, a2)]) = Ok (Some (bs "overloadi", [a1; ov_text a0 a1 a3; a2])).
Proof.
  intros B. repeat (apply Forall_cons_iff in B as [[? ?] B]).
  assert (Ov : item (1, ov_text a0 a1 a3)).
  { apply item_app_call.
    - vm_compute. repeat constructor; discriminate.
    - discriminate.
    - apply Forall_cons; [exact H|]. apply Forall_cons; [exact H1|]. apply Forall_cons; [exact H5|]. constructor.
    - discriminate. }
  assert (G2 : given [(0, a1); (1, ov_text a0 a1 a3); (1, a2)] = [a1; ov_text a0 a1 a3; a2]).
  { rewrite given_full; [reflexivity|]. repeat constructor; cbn [snd]; auto. unfold ov_text, call. discriminate. }
  rewrite <- G2. rewrite <- (app_nil_r (call _ _)). apply parse_fn_ok; [discriminate| | |rewrite G2; cbn; lia].
  - apply Forall_cons; [exact H1|]. apply Forall_cons; [exact Ov|]. apply Forall_cons; [exact H3|]. constructor.
  - vm_compute. intros X. repeat destruct X as [X|X]; try discriminate X. exact X.
Qed.
Lemma ov_parse a0 a1 a3 : balanced_args [a0; a1; a3] -> parse_fn (ov_text a0 a1 a3) = Ok (Some (bs "overloadt2", [a0; a1; a3])).
Proof.
  intros B. repeat (apply Forall_cons_iff in B as [[? ?] B]).
  assert (G2 : given (ov_items a0 a1 a3) = [a0; a1; a3]).
  { rewrite given_full; [reflexivity|]. repeat constructor; auto. }
  rewrite <- G2. unfold ov_text. rewrite <- (app_nil_r (call _ _)). apply parse_fn_ok; [discriminate| | |rewrite G2; cbn; lia].
  - apply Forall_cons; [exact H|]. apply Forall_cons; [exact H1|]. apply Forall_cons; [exact H3|]. constructor.
  - vm_compute. intros X. repeat destruct X as [X|X]; try discriminate X. exact X.
Qed.
Lemma parse_fn_total s : parse_fn s = Crash CFnArgs \/ exists o, parse_fn s = Ok o.
Proof.
  unfold parse_fn. destruct (split_at_paren s []) as [[n r]|] eqn:Ep; [|eauto].
  apply split_paren_sound in Ep. destruct Ep as [u [-> [-> Hn]]].
  destruct (scan_args_total (S (length (u ++ 40%N :: r))) (drop_while is_space32 r) []) as [T|[o T]].
  - pose proof (drop_while_le is_space32 r). rewrite app_length. cbn [length]. lia.
  - rewrite T. now left.
  - rewrite T. right. destruct o; cbn [bind]; eauto.
Qed.
Lemma lettermod_within X a0 a1 a2 a3 : balanced_args [a0; a1; a2; a3] -> within X (parse_fn (lettermod_text a0 a1 a2 a3)).
Proof.
  intros B. destruct (parse_fn_total (lettermod_text a0 a1 a2 a3)) as [E|[o ->]]; [|exact Logic.I]. exfalso.
  rewrite lettermod_text_eq in E. apply (parse_fn_ext _ (skipn (Z.to_nat 1023) (call (bs "overloadi") [(0, a1); (1, ov_text a0 a1 a3); (1, a2)]))) in E.
  rewrite firstn_skipn, lettermod_full in E; [discriminate|easy].
Qed.
(* the condition under which no abort can happen *)
Definition clean (X : bool) (s : str) : Prop := X = true \/ ascii s /\ commas s <= 4.
Lemma clean_sub X x a y : clean X (x ++ a ++ y) -> clean X a.
Proof.
  intros [->|[A C]]; [now left|right]. split.
  - eapply ascii_incl; [|exact A]. intros c Hc. apply in_or_app. right. apply in_or_app. now left.
  - rewrite !commas_app in C. lia.
Qed.
Lemma clean_plain X s : clean X s -> plain X s.
Proof. intros [->|[A C]]; [now left|now right]. Qed.
Lemma str_eqb_true a b : str_eqb a b = true -> a = b.
Proof.
  revert b. induction a as [|x a IH]; intros [|y b] H; cbn [str_eqb] in H; try discriminate; [easy|].
  apply andb_true_iff in H as [H1 H2]. apply N.eqb_eq in H1. subst. f_equal. auto.
Qed.
Lemma parse_fn_all s fn args : parse_fn s = Ok (Some (fn, args)) -> balanced_args args.
Proof. intros H. apply Forall_forall. intros a Ha. now apply (parse_fn_arg _ _ _ _ H Ha). Qed.
Lemma commas_zero l : ~ In 44%N l -> commas l = 0.
Proof. apply count_occ_not_In. Qed.
Lemma listed4_commas a0 a1 a2 a3 n0 n1 n2 n3 :
  commas (listed [(n0, a0); (n1, a1); (n2, a2); (n3, a3)]) = 3 + commas a0 + commas a1 + commas a2 + commas a3.
Proof.
  assert (R : forall n, commas (repeat 32%N n) = 0). { intros n. apply commas_zero. intros H. apply repeat_spec in H. discriminate. }
  cbn [listed]. repeat (rewrite ?commas_app, ?commas_cons, ?R). destruct (N.eq_dec 44 44); [lia|easy].
Qed.
Lemma given_commas : forall items, commas (listed items) >= (length (given items) - 1) + fold_right (fun a n => commas a + n) 0 (given items).
Proof.
  assert (R : forall n, commas (repeat 32%N n) = 0). { intros n. apply commas_zero. intros H. apply repeat_spec in H. discriminate. }
  induction items as [|[n a] items IH]; [cbn; lia|]. destruct items as [|it items].
  - cbn [listed]. rewrite commas_app, R, given_cons. change (given []) with (@nil str). rewrite app_nil_r.
    destruct a; cbn [length fold_right]; lia.
  - rewrite listed_cons by easy. rewrite given_cons. rewrite !commas_app, commas_cons, R. destruct (N.eq_dec 44 44); [|easy].
    rewrite app_length, fold_right_app. destruct a; cbn [length fold_right]; lia.
Qed.
Lemma ov_clean X s a0 a1 a2 a3 : parse_fn s = Ok (Some (bs "lettermod", [a0; a1; a2; a3])) -> clean X s -> clean X (ov_text a0 a1 a3).
Proof.
  intros H [->|[A C]]; [now left|right]. pose proof H as H0. apply parse_fn_sound in H as [_ [items [rest [NE [F [E G]]]]]].
  assert (Asub : forall a, In a [a0; a1; a2; a3] -> ascii a).
  { intros a Ha. destruct (parse_fn_arg _ _ _ _ H0 Ha) as [[x [y [Es _]]] _]. eapply ascii_incl; [|exact A].
    rewrite Es. intros c Hc. apply in_or_app. right. apply in_or_app. now left. }
  pose proof (given_commas items) as GC. rewrite <- G in GC. cbn [length fold_right] in GC.
  rewrite E in C. unfold call in C. rewrite !commas_app, commas_cons, commas_app in C.
  split.
  - unfold ov_text, call, ov_items. cbn [listed repeat]. unfold ascii.
    assert (S : forall x, ascii x -> Forall (fun c => (c < 128)%N) x) by easy.
    repeat first [apply Forall_app; split | apply Forall_cons | apply Forall_nil | (apply S, Asub; cbn; tauto) | (vm_compute; reflexivity)].
  - unfold ov_text, call, ov_items. cbn [listed repeat]. repeat (rewrite ?commas_app, ?commas_cons). 
    change (commas (bs "overloadt2")) with 0. change (commas []) with 0.
    repeat match goal with |- context [N.eq_dec ?a ?b] => destruct (N.eq_dec a b); try discriminate end; lia.
Qed.
Lemma resolve_within X s : clean X s -> within X (resolve s).
Proof.
  intros C. unfold resolve. apply within_bind; [apply split_paren_within; destruct C as [->|[_ C]]; auto|].
  intros [[fn args]|] E; [|exact Logic.I]. destruct (str_eqb fn _) eqn:Ef; [|exact Logic.I].
  apply parse_fn_all in E. destruct args as [|a0 [|a1 [|a2 [|a3 [|? ?]]]]]; try exact Logic.I. now apply lettermod_within.
Qed.
Lemma resolve_normal s fn args : resolve s = Ok (Some (fn, args)) ->
  parse_fn s = Ok (Some (fn, args)) \/
  exists a0 a1 a2 a3, parse_fn s = Ok (Some (bs "lettermod", [a0; a1; a2; a3])) /\ args = [a1; ov_text a0 a1 a3; a2].
Proof.
  unfold resolve. intros H. bstep H o E. destruct o as [[fn0 args0]|]; [|discriminate].
  destruct (str_eqb fn0 _) eqn:Ef.
  - apply str_eqb_true in Ef. subst fn0. destruct args0 as [|a0 [|a1 [|a2 [|a3 [|? ?]]]]]; try discriminate.
    right. exists a0, a1, a2, a3. split; [easy|]. eapply lettermod_args; [|exact H]. eapply parse_fn_all; eauto.
  - injection H as <- <-. now left.
Qed.
Lemma desc_within X : forall f s c, length s + 2 <= f -> (X = true \/ has_mods c) -> clean X s -> within X (parse_desc f c s).
Proof.
  induction f as [f IH] using lt_wf_ind. intros s c Hf M C. destruct f as [|f]; [lia|].
  apply body_within; auto; [now apply clean_plain|now apply resolve_within|].
  intros fn args E a Ha. destruct (resolve_normal s fn args E) as [E1|[a0 [a1 [a2 [a3 [E1 ->]]]]]].
  - destruct (parse_fn_arg _ _ _ _ E1 Ha) as [[x [y [Es Hl]]] _]. rewrite Es in C. apply clean_sub in C.
    split; [now apply clean_plain|]. intros c0 M0. apply IH; auto. rewrite Es, !app_length in Hf. lia.
  - assert (Sub : forall b, In b [a0; a1; a2; a3] -> clean X b /\ length b + 4 <= S f).
    { intros b Hb. destruct (parse_fn_arg _ _ _ _ E1 Hb) as [[x [y [Es Hl]]] _]. rewrite Es in C. apply clean_sub in C.
      split; [easy|]. rewrite Es, !app_length in Hf. lia. }
    pose proof (parse_fn_all _ _ _ E1) as Bal.
    assert (Simple : forall b, In b [a0; a1; a2; a3] -> plain X b /\ forall c, (X = true \/ has_mods c) -> within X (parse_desc f c b)).
    { intros b Hb. destruct (Sub b Hb) as [Cb Lb]. split; [now apply clean_plain|]. intros c0 M0. apply IH; auto. lia. }
    destruct Ha as [<-|[<-|[<-|[]]]]; [apply Simple; cbn; tauto| |apply Simple; cbn; tauto].
    assert (Co : clean X (ov_text a0 a1 a3)) by (eapply ov_clean; eauto).
    split; [now apply clean_plain|]. intros c0 M0. destruct f as [|f].
    { destruct (Sub a0 (or_introl eq_refl)). lia. }
    assert (B3 : balanced_args [a0; a1; a3]).
    { repeat (apply Forall_cons_iff in Bal as [? Bal]). repeat (apply Forall_cons; [assumption|]). constructor. }
    apply body_within; auto; [now apply clean_plain|now apply resolve_within|].
    intros fn2 args2 E2 b Hb.
    assert (args2 = [a0; a1; a3]).
    { unfold resolve in E2. rewrite (ov_parse a0 a1 a3 B3) in E2. cbn [bind] in E2.
      change (str_eqb (bs "overloadt2") (bs "lettermod")) with false in E2. cbn iota in E2. now injection E2. }
    subst args2.
    assert (Hb' : In b [a0; a1; a2; a3]) by (destruct Hb as [<-|[<-|[<-|[]]]]; cbn; tauto).
    destruct (Sub b Hb') as [Cb Lb]. split; [now apply clean_plain|]. intros c1 M1. apply IH; auto; lia.
Qed.
