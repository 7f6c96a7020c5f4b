(* Every macro of a parsed configuration lets go of its keys (C25, C27). *)
From Coq Require Import String.
From Verif Require Import Base Lib Keys Types Str MacroExec MacroParse Ini Kbd Config Steps Hist Outside SpecMods SpecNotation SpecHist
  SpecActions SpecAccount SpecDefer SpecStuck SpecWf ParseWf NotationProofs MacroProofs.
From Coq Require Import List.
Import ListNotations.
Local Open Scope list_scope.
Local Open Scope nat_scope.
Local Notation length := List.length.

(* every key held is followed by the entry that releases *)
Definition releases (m : macro) : bool := existsb (fun e => match m_type e with MRelease => true | _ => false end) m.
Fixpoint closes (m : macro) : bool :=
  match m with
  | [] => true
  | e :: r => match m_type e with MHold => releases r | _ => true end && closes r
  end.
Definition holds_code (c : N) (held : option (list mentry)) : Prop :=
  exists es e, held = Some es /\ In e es /\ (m_data e mod 256)%N = c.
Lemma after_sleep c t b : after c (if negb (t =? 0)%Z then [sleep_of t] else []) b = b.
Proof. destruct (_ =? _)%Z; reflexivity. Qed.
Lemma keyseq_after c t d b : after c (mexec_keyseq t d) b = true -> b = true.
Proof.
  unfold mexec_keyseq. cbv zeta. rewrite !after_app. set (ms := filter _ modifiers). clearbody ms.
  intros H.
  assert (X : forall (l : list (N * N)) p x, after c (map (fun mk => OKey (snd mk) p) l) x = if existsb (N.eqb c) (map snd l) then p else x).
  { induction l as [|y l IH]; intros p x; auto. cbn [map existsb]. 
    change (after c (map (fun mk => OKey (snd mk) p) l) (if (snd y =? c)%N then p else x) = if ((c =? snd y) || existsb (N.eqb c) (map snd l))%N%bool then p else x).
    rewrite IH, (N.eqb_sym c (snd y)). destruct (snd y =? c)%N, (existsb (N.eqb c) (map snd l)); reflexivity. }
  rewrite X in H. destruct (existsb _ _) eqn:E; [discriminate|]. cbn [after fold_left] in H.
  destruct (_ =? c)%N; [discriminate|].
  rewrite X in H. destruct (negb _ && negb _) in H; cbn [fold_left] in H; rewrite E in H; exact H.
Qed.
Lemma strokes_after c l b : after c (flat_map (fun c0 => [OKey c0 true; OKey c0 false]) l) b = true -> b = true.
Proof.
  change (fun c0 => [OKey c0 true; OKey c0 false]) with (fun c0 => [down c0; up c0]). rewrite after_strokes.
  destruct (existsb _ _); [discriminate|auto].
Qed.
Lemma mexec_lets_go c t b0 : forall m held b, closes m = true -> (held <> None -> releases m = true) ->
  (b = true -> b0 = true \/ holds_code c held) -> after c (mexec t held m) b = true -> b0 = true.
Proof.
  induction m as [|e m IH]; intros held b Hc Hh Hb H; cbn [mexec closes] in *.
  - cbn [after fold_left] in H. destruct (Hb H) as [|[es [e [-> _]]]]; auto. discriminate (Hh ltac:(discriminate)).
  - apply andb_true_iff in Hc as [Hc1 Hc2]. rewrite !after_app, after_sleep in H.
    assert (Hh2 : m_type e <> MRelease -> held <> None -> releases m = true).
    { intros Hn X. specialize (Hh X). unfold releases in Hh. cbn [existsb] in Hh. now destruct (m_type e). }
    assert (Hb2 : forall b' e', (b' = true -> b = true) -> b' = true -> b0 = true \/ holds_code c (match held with Some es => Some (es ++ [e']) | None => None end)).
    { intros b' e' X Y. destruct (Hb (X Y)) as [|[es [e0 [-> [Z1 Z2]]]]]; auto. right. exists (es ++ [e']), e0. split; auto.
      split; auto. apply in_app_iff. auto. }
    destruct (m_type e) eqn:Et.
    + eapply IH; [exact Hc2| | |exact H].
      * intros X. apply Hh2; [discriminate|]. now destruct held.
      * apply Hb2. apply keyseq_after.
    + eapply IH; [exact Hc2| | |exact H].
      * auto.
      * cbn [after fold_left]. destruct (N.eqb_spec (m_data e mod 256) c) as [E|E].
        -- intros _. right. destruct held as [es|]; [exists (es ++ [e]), e|exists [e], e]; (split; [reflexivity|]); split; auto.
           ++ apply in_app_iff. right. now left.
           ++ now left.
        -- intros Y. destruct (Hb Y) as [|[es [e0 [-> [Z1 Z2]]]]]; auto. right. exists (es ++ [e]), e0. split; auto.
           split; auto. apply in_app_iff. auto.
    + eapply IH; [exact Hc2| | |exact H]; [now intros X|].
      destruct held as [es|].
      * change (map (fun x => OKey (m_data x mod 256) false) es) with (map (fun x => up (m_data x mod 256)%N) es).
        rewrite <- (map_map (fun x => (m_data x mod 256)%N) up), after_ups.
        destruct (existsb _ _) eqn:E; [discriminate|]. intros Y. left. destruct (Hb Y) as [|[es' [e0 [Z0 [Z1 Z2]]]]]; auto. exfalso.
        injection Z0 as <-. rewrite <- not_true_iff_false in E. apply E. apply existsb_exists. exists c. split; [|apply N.eqb_refl].
        rewrite <- Z2. now apply (in_map (fun x => (m_data x mod 256)%N)).
      * cbn [after fold_left]. intros Y. left. destruct (Hb Y) as [|[es' [e0 [Z0 _]]]]; auto. discriminate.
    + eapply IH; [exact Hc2| | |exact H].
      * intros X. apply Hh2; [discriminate|]. now destruct held.
      * apply Hb2. apply strokes_after.
    + eapply IH; [exact Hc2| | |exact H].
      * intros X. apply Hh2; [discriminate|]. now destruct held.
      * apply Hb2. cbn [after fold_left]. auto.
Qed.
Lemma closes_app a b : closes a = true -> closes b = true -> closes (a ++ b) = true.
Proof.
  intros Ha Hb. induction a as [|e a IH]; auto. cbn [closes app] in *. apply andb_true_iff in Ha as [H1 H2].
  rewrite IH by exact H2. rewrite andb_true_r. destruct (m_type e); auto. unfold releases in *. now rewrite existsb_app, H1.
Qed.
Lemma closes_encode es : closes (flat_map encode es) = true.
Proof.
  induction es as [|e es IH]; auto. cbn [flat_map]. apply closes_app; auto.
  destruct e as [mods code|items|idx|ms]; try reflexivity. cbn [encode].
  induction items as [|g items IH2]; auto. cbn [map app closes]. rewrite IH2, andb_true_r.
  destruct g; auto. cbn [m_type]. unfold releases. rewrite existsb_app. apply orb_true_r.
Qed.
Lemma encoded_lets_go es : lets_go (flat_map encode es).
Proof.
  intros t c b H. eapply (mexec_lets_go c t b _ None b); [apply closes_encode| | |exact H]; auto; intros X; now elim X.
Qed.

(* ---- the macros of a configuration ------------------------------------------------------- *)
Definition let_go (c : config) : Prop := forall m, In m (c_macros c) -> lets_go m.
Lemma let_go_same c c' : c_macros c' = c_macros c -> let_go c -> let_go c'.
Proof. unfold let_go. now intros ->. Qed.
Lemma let_go_add c m : lets_go m -> let_go c -> let_go (set_c_macros (c_macros c ++ [m]) c).
Proof. intros Hm Hc x Hx. cbn [c_macros set_c_macros] in Hx. apply in_app_iff in Hx as [Hx|[<-|[]]]; auto. Qed.
Lemma parse_lets_go s m : macro_parse s = Ok (Some m) -> lets_go m.
Proof. intros H. apply macro_parse_encoded in H as [es [_ ->]]. apply encoded_lets_go. Qed.
Lemma expr_lets_go s m : parse_macro_expression s = Ok (POk m) -> lets_go m.
Proof.
  unfold parse_macro_expression. intros H. destruct (N.leb _ _); [discriminate|]. destruct (_ && _).
  - bstep H o E. destruct o as [x|]; [|discriminate]. injection H as ->. eapply parse_lets_go; eauto.
  - bstep H v E. destruct v; [|discriminate]. bstep H o E2. destruct o as [x|]; [|discriminate]. injection H as ->. eapply parse_lets_go; eauto.
Qed.
Section Pd.
Variable pd : config -> str -> res (config * option desc).
Hypothesis Hpd : forall c s c' d, let_go c -> pd c s = Ok (c', d) -> let_go c'.
Lemma arg_let_go c t a c' v : let_go c -> parse_arg pd c t a = Ok (c', v) -> let_go c'.
Proof.
  intros Hc H. destruct t; cbn [parse_arg parse_simple_arg] in H.
  all: try (bstep H r E; destruct r as [c1 [d|]]; [|apply Ok_inj in H; injection H as <- _; eauto];
            apply Hpd in E; [|exact Hc]; destruct (N.leb _ _); apply Ok_inj in H; injection H as <- _; auto; fail).
  all: try (repeat match type of H with
       | (if ?b then _ else _) = _ => destruct b
       | match ?x with _ => _ end = _ => destruct x
       end; apply Ok_inj in H; injection H as <- _; exact Hc).
  destruct (Nat.leb _ _); [apply Ok_inj in H; injection H as <- _; exact Hc|]. bstep H r E.
  destruct r; apply Ok_inj in H; injection H as <- _; auto. apply let_go_add; auto. eapply expr_lets_go; eauto.
Qed.
Lemma args_let_go : forall ts c vals c' r, let_go c -> parse_args pd ts c vals = Ok (c', r) -> let_go c'.
Proof.
  induction ts as [|[t a] ts IH]; intros c vals c' r Hc H; cbn [parse_args] in H.
  - apply Ok_inj in H. injection H as <- _. exact Hc.
  - bstep H r1 E. destruct r1 as [c1 v]. apply arg_let_go in E; [|exact Hc].
    destruct v as [v|]; [eauto|]. apply Ok_inj in H. injection H as <- _. exact E.
Qed.
Lemma call_let_go c fn args c' d : let_go c -> parse_call pd c fn args = Ok (c', d) -> let_go c'.
Proof.
  intros Hc H. unfold parse_call in H. destruct (find_action actions fn) as [[o ts]|]; [|apply Ok_inj in H; injection H as <- _; auto].
  destruct (negb _); [apply Ok_inj in H; injection H as <- _; auto|]. bstep H r E. destruct r as [c1 v].
  apply Ok_inj in H. injection H as <- _. eapply args_let_go; eauto.
Qed.
Lemma body_let_go c s c' d : let_go c -> parse_body pd c s = Ok (c', d) -> let_go c'.
Proof.
  intros Hc H. unfold parse_body in H.
  destruct s as [|x s'] eqn:Es; [apply Ok_inj in H; injection H as <- _; auto|]. rewrite <- Es in *. clear Es.
  destruct (parse_key_sequence s) as [[code mods]|].
  - destruct (mod_layer_name code); [destruct (config_get_layer_index _ _); [|discriminate]|]; apply Ok_inj in H; injection H as <- _; auto.
  - destruct (parse_command s) as [| |cmd].
    + bstep H o E. destruct o as [| |m].
      * bstep H o2 E2. destruct o2 as [[fn args]|]; [|apply Ok_inj in H; injection H as <- _; auto].
        bstep H o3 E3. destruct o3 as [[fn2 args2]|]; [|apply Ok_inj in H; injection H as <- _; auto].
        eapply call_let_go; eauto.
      * apply Ok_inj in H; injection H as <- _; auto.
      * destruct (Nat.leb _ _); apply Ok_inj in H; injection H as <- _; auto. apply let_go_add; auto. eapply expr_lets_go; eauto.
    + apply Ok_inj in H; injection H as <- _; auto.
    + destruct (Nat.leb _ _); apply Ok_inj in H; injection H as <- _; auto.
Qed.
End Pd.
Lemma desc_let_go f : forall c s c' d, let_go c -> parse_desc f c s = Ok (c', d) -> let_go c'.
Proof.
  induction f as [|f IH]; intros c s c' d Hc H; [discriminate|]. rewrite parse_desc_S in H. eapply body_let_go; eauto.
Qed.
Lemma entry_let_go c exp c' ok : let_go c -> config_add_entry c exp = Ok (c', ok) -> let_go c'.
Proof.
  intros Hc H. unfold config_add_entry in H.
  destruct (N.leb _ _); [injection H as <- <-; auto|].
  destruct (match find_char 46 exp 0 with
       | Some (S d) =>
           if match find_char 40 exp 0 with
              | Some p => Nat.ltb (S d) p
              | None => true
              end
           then (firstn (S d) exp, skipn (S (S d)) exp)
           else (bs "main", exp)
       | _ => (bs "main", exp)
       end) as [lname s].
  destruct (parse_kvp s) as [key val].
  destruct (config_get_layer_index c lname) as [idx|] eqn:Ei; [|injection H as <- <-; auto].
  bstep H r E. destruct r as [c1 d].
  assert (G : let_go c1).
  { destruct val as [v|]; [eapply desc_let_go; eauto|]. injection E as <- <-. exact Hc. }
  destruct d as [d|]; [|injection H as <- <-; auto].
  destruct (set_layer_entry _ _ _ _) as [l|]; injection H as <- <-; exact G.
Qed.
Lemma foldr_let_go {A} (f : config -> A -> res config) :
  (forall c e c', let_go c -> f c e = Ok c' -> let_go c') ->
  forall es c c', let_go c -> foldr_res f es c = Ok c' -> let_go c'.
Proof.
  intros Hf. induction es as [|e r IH]; cbn [foldr_res]; intros c c' Hi H.
  - apply Ok_inj in H; now subst.
  - bstep H c1 E. eauto.
Qed.
Lemma global_let_go c e c' : let_go c -> parse_global_entry c e = Ok c' -> let_go c'.
Proof.
  intros Hi H. destruct e as [key val]. unfold parse_global_entry in H.
  repeat match type of H with (if ?b then _ else _) = _ => destruct b end;
    try (apply Ok_inj in H; subst; exact Hi);
    destruct val; try discriminate; apply Ok_inj in H; subst; exact Hi.
Qed.
Lemma id_let_go c e c' : let_go c -> parse_id_entry c e = Ok c' -> let_go c'.
Proof.
  intros Hi H.
  assert (G : forall id f c', add_id c id f = Ok c' -> let_go c').
  { intros id f c2 H2. unfold add_id in H2. destruct (Nat.ltb _ _); [|discriminate]. apply Ok_inj in H2; subst. exact Hi. }
  unfold parse_id_entry in H.
  repeat match type of H with (if ?b then _ else _) = _ => destruct b end; try (eapply G; eauto; fail);
    apply Ok_inj in H; subst; exact Hi.
Qed.
Lemma alias_let_go c e c' : let_go c -> parse_alias_entry c e = Ok c' -> let_go c'.
Proof.
  intros Hi H. destruct e as [key val]. unfold parse_alias_entry in H.
  destruct (_ =? 0)%N; [apply Ok_inj in H; subst; auto|].
  destruct val as [name|]; [|discriminate].
  destruct (Nat.leb _ _); [apply Ok_inj in H; subst; auto|].
  apply Ok_inj in H; subst. apply (let_go_same c); auto. cbn [c_macros set_c_aliases].
  destruct (_ =? 0)%N; auto. destruct (c_layers c); reflexivity.
Qed.
Lemma layer_let_go c s c' : let_go c -> config_add_layer c s = Ok c' -> let_go c'.
Proof.
  intros Hi H. unfold config_add_layer in H.
  destruct (Nat.leb 65 (length s)); [apply Ok_inj in H; subst; auto|].
  destruct (match tokens 58 s with [] => None | n :: _ => config_get_layer_index c n end);
    [apply Ok_inj in H; subst; auto|].
  destruct (Nat.leb 32 (length (c_layers c))); [apply Ok_inj in H; subst; auto|].
  bstep H o E. destruct o as [l|]; apply Ok_inj in H; subst; exact Hi.
Qed.
Lemma pass1_let_go c s c' : let_go c -> pass1_section c s = Ok c' -> let_go c'.
Proof.
  intros Hi H. unfold pass1_section in H.
  destruct (str_eqb _ _); [eapply foldr_let_go; eauto using id_let_go|].
  destruct (str_eqb _ _); [eapply foldr_let_go; eauto using alias_let_go|].
  destruct (str_eqb _ _); [eapply foldr_let_go; eauto using global_let_go|].
  eapply layer_let_go; eauto.
Qed.
Lemma pass2_let_go c s c' : let_go c -> pass2_section c s = Ok c' -> let_go c'.
Proof.
  intros Hi H. unfold pass2_section in H. destruct (_ || _); [apply Ok_inj in H; now subst|].
  eapply foldr_let_go; [|exact Hi|exact H].
  intros c0 e c1 Hi0 H0. unfold pass2_entry in H0. destruct (snd e); [|apply Ok_inj in H0; now subst].
  destruct (hd_error _); [|discriminate]. bstep H0 r E. destruct r as [c2 ok]. apply Ok_inj in H0; subst.
  eapply entry_let_go; eauto.
Qed.
Lemma string_let_go c text c' : let_go c -> config_parse_string c text = Ok (Some c') -> let_go c'.
Proof.
  intros Hi H. unfold config_parse_string in H. bstep H o E. destruct o as [secs|]; [|discriminate].
  bstep H c1 E1. bstep H c2 E2. injection H as <-.
  eapply foldr_let_go; [exact pass2_let_go| |exact E2].
  eapply foldr_let_go; [exact pass1_let_go|exact Hi|exact E1].
Qed.
Lemma init_let_go c : config_init = Ok c -> let_go c.
Proof.
  unfold config_init, config_parse_string. rewrite default_secs_ok. cbn [bind].
  intros H. bstep H o E1. bstep E1 c1 E0. bstep E1 c2 E2. apply Ok_inj in E1. subst o. apply Ok_inj in H. subst c.
  apply (let_go_same c2); [reflexivity|]. eapply foldr_let_go; [exact pass2_let_go| |exact E2].
  eapply foldr_let_go; [exact pass1_let_go| |exact E0]. intros m [].
Qed.
Lemma parsed_let_go text c : config_parse text = Ok (Some c) -> let_go c.
Proof.
  unfold config_parse. intros H. bstep H c0 E. eapply string_let_go; [|exact H]. now apply init_let_go.
Qed.
Lemma reach_let_go (G : config -> Prop) c k : let_go c -> reach G c k -> reach (fun c => G c /\ let_go c) c k /\ let_go (k_cfg k).
Proof.
  intros Hc H.
  assert (X : reach (fun c => G c /\ let_go c) c k /\ let_go (k_cfg k) /\ let_go (k_orig k)).
  { induction H as [clk Hk Hg|k fuel evs k' t Hr IH H|k exp k' ok Hr IH H Hg|k k' Hr IH H].
    - split; [apply reach_init; auto|]. split; exact Hc.
    - destruct IH as [I1 I2]. split; [eapply reach_events; eauto|].
      pose proof H as H'. apply kbd_process_events_steps, steps_cfg in H' as [-> ->]. exact I2.
    - destruct IH as [I1 [I2 I3]].
      assert (Y : let_go (k_cfg k') /\ let_go (k_orig k')).
      { unfold kbd_eval in H. destruct (str_eqb _ _); [apply Ok_inj in H; injection H as <- _; auto|].
        bstep H r E. destruct r as [c1 b]. apply Ok_inj in H. injection H as <- _. split; [exact (entry_let_go _ _ _ _ I2 E)|exact I3]. }
      split; [eapply reach_eval; eauto; split; auto; apply Y|exact Y].
    - destruct IH as [I1 I2]. split; [eapply reach_outside; eauto|]. destruct H; exact I2. }
  split; apply X.
Qed.
