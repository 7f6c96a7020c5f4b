(* What a bind expression can do to the process: the proofs behind C67. *)
From Coq Require Import String Lia.
From Verif Require Import Base Lib KeyTable Keys Types Str MacroParse Ini Config SpecText TextProofs ParseWf ParseFrame ParseTotal.
Local Open Scope list_scope.
Local Notation length := List.length.

Definition mild {A} (r : res A) : Prop :=
  match r with UB => False | Crash c => c = CFnArgs \/ c = CUtf8 | _ => True end.
Lemma mild_bind {A B} (x : res A) (g : A -> res B) : mild x -> (forall a, x = Ok a -> mild (g a)) -> mild (bind x g).
Proof. destruct x; cbn; auto. Qed.
Lemma utf8_mild s : mild (utf8_read_char s).
Proof.
  unfold utf8_read_char. destruct s; [exact Logic.I|].
  repeat match goal with |- context [if ?b then _ else _] => destruct b end; cbn; auto.
Qed.
Lemma strlen_mild : forall f s n, mild (utf8_strlen_from f s n).
Proof.
  induction f as [|f IH]; intros s n; cbn [utf8_strlen_from]; [exact Logic.I|].
  apply mild_bind; [apply utf8_mild|]. intros [sz cp] _. destruct sz; [exact Logic.I|apply IH].
Qed.
Lemma text_mild : forall f s m, mild (parse_text f s m).
Proof.
  induction f as [|f IH]; intros s m; cbn [parse_text]; [exact Logic.I|].
  apply mild_bind; [apply utf8_mild|]. intros [sz cp] _. destruct sz as [|sz]; [exact Logic.I|].
  match goal with |- mild (match ?n with None => _ | Some _ => _ end) => destruct n end; [|exact Logic.I]. apply IH.
Qed.
Lemma tokens_mild : forall toks m, mild (parse_tokens toks m).
Proof.
  induction toks as [|t toks IH]; intros m; cbn [parse_tokens]; [exact Logic.I|].
  apply mild_bind; [|intros [m'|] _; [apply IH|exact Logic.I]].
  unfold parse_token. destruct (parse_key_sequence t) as [[code mods]|]; [exact Logic.I|].
  destruct (has_char 43 t); [exact Logic.I|]. destruct (is_timeval t); [exact Logic.I|]. apply text_mild.
Qed.
Lemma macro_mild s : mild (macro_parse s).
Proof. apply tokens_mild. Qed.
Lemma macro_expr_mild s : mild (parse_macro_expression s).
Proof.
  unfold parse_macro_expression. destruct (_ && _).
  - destruct (_ <=? _)%N; [exact Logic.I|]. apply mild_bind; [|intros [m|] _; exact Logic.I]. apply macro_mild.
  - destruct (_ <=? _)%N; [exact Logic.I|]. apply mild_bind.
    + destruct (parse_key_sequence s); [exact Logic.I|]. apply mild_bind; [apply strlen_mild|]. intros; exact Logic.I.
    + intros v _. destruct v; [|exact Logic.I]. apply mild_bind; [apply macro_mild|]. intros [m|] _; exact Logic.I.
Qed.
Lemma args_mild : forall f s args, mild (scan_args f s args).
Proof.
  induction f as [|f IH]; intros s args; [exact Logic.I|]. cbn [scan_args].
  destruct (scan_arg s 0 []) as [[[a stop] r]|]; [|exact Logic.I].
  apply mild_bind; [destruct a; [exact Logic.I|destruct (Nat.ltb _ _); cbn; auto]|]. intros args' _. destruct (_ =? _)%N; [exact Logic.I|apply IH].
Qed.
Lemma fn_mild s : mild (parse_fn s).
Proof.
  unfold parse_fn. destruct (split_at_paren s []) as [[n r]|]; [|exact Logic.I].
  apply mild_bind; [apply args_mild|]. intros [args|] _; exact Logic.I.
Qed.
Lemma resolve_mild s : mild (resolve s).
Proof.
  unfold resolve. apply mild_bind; [apply fn_mild|]. intros [[fn args]|] _; [|exact Logic.I].
  destruct (str_eqb _ _); [|exact Logic.I]. destruct args as [|a0 [|a1 [|a2 [|a3 [|? ?]]]]]; try exact Logic.I. apply fn_mild.
Qed.
Lemma simple_arg_mild c t a : mild (parse_simple_arg c t a).
Proof.
  destruct t; cbn [parse_simple_arg]; try exact Logic.I.
  - destruct (Nat.leb _ _); [exact Logic.I|]. apply mild_bind; [apply macro_expr_mild|]. intros r _; destruct r; exact Logic.I.
  - destruct (str_eqb _ _); [exact Logic.I|]. destruct (config_get_layer_index _ _); [|exact Logic.I]. destruct (is_layout _); exact Logic.I.
  - destruct (config_get_layer_index _ _); [|exact Logic.I]. destruct (_ && _); exact Logic.I.
Qed.
Lemma desc_mild : forall f c s, has_mods c -> mild (parse_desc f c s).
Proof.
  induction f as [|f IH]; intros c s M; [exact Logic.I|].
  rewrite parse_desc_S, body_resolve. destruct s as [|x s']; [exact Logic.I|]. set (s := x :: s') in *.
  destruct (parse_key_sequence s) as [[code mods]|].
  { destruct (mod_layer_name code) as [n|] eqn:En; [|exact Logic.I].
    destruct (M n (mod_layer_in _ _ En)) as [i [-> _]]. exact Logic.I. }
  destruct (parse_command s); [|exact Logic.I|destruct (Nat.leb _ _); exact Logic.I].
  apply mild_bind; [apply macro_expr_mild|]. intros r _. destruct r; [|exact Logic.I|destruct (Nat.leb _ _); exact Logic.I].
  apply mild_bind; [apply resolve_mild|]. intros o _. destruct o as [[fn args]|]; [|exact Logic.I].
  unfold parse_call. destruct (find_action actions fn) as [[oper ts]|]; [|exact Logic.I].
  destruct (negb _); [exact Logic.I|]. apply mild_bind; [|intros [c' v] _; exact Logic.I].
  generalize (rev (combine ts args)) as l. intros l. generalize (@nil argv) as vals. revert c M.
  induction l as [|[t a] l IHl]; intros c M vals; cbn [parse_args]; [exact Logic.I|].
  apply mild_bind.
  - destruct t; cbn [parse_arg]; try apply simple_arg_mild.
    apply mild_bind; [now apply IH|]. intros [c1 [d|]] _; [|exact Logic.I]. destruct (N.leb _ _); exact Logic.I.
  - intros [c1 [v|]] E; [|exact Logic.I]. apply IHl.
    assert (G : false = true \/ has_mods c1); [|destruct G; [discriminate|assumption]].
    eapply grows_mods; [|right; exact M]. eapply parse_arg_grows; [|exact E]. intros; eapply parse_desc_grows; eauto.
Qed.
Lemma add_entry_mild c exp : has_mods c -> mild (config_add_entry c exp).
Proof.
  intros M. rewrite add_entry_unfold. destruct (N.leb _ _); [exact Logic.I|].
  destruct (split_entry exp) as [l s]. destruct (parse_kvp s) as [k v].
  destruct (config_get_layer_index c l); [|exact Logic.I].
  apply mild_bind; [destruct v; [now apply desc_mild|exact Logic.I]|].
  intros [c1 [d|]] _; [|exact Logic.I]. destruct (set_layer_entry _ _ _ _); exact Logic.I.
Qed.
Lemma add_entry_nf c exp : config_add_entry c exp <> NoFuel.
Proof.
  intros H. pose proof (add_entry_within true c exp (or_introl eq_refl) (or_introl eq_refl)) as G. rewrite H in G. exact G.
Qed.
Lemma inv_mods c : inv c -> has_mods c.
Proof. now intros (_ & M). Qed.
