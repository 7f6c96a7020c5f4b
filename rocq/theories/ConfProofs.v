(* Proofs for the meaning of a whole configuration file (C60). *)
From Coq Require Import String Lia.
From Verif Require Import Base Lib KeyTable Keys Types Str UnicodeTable MacroParse Ini Config SpecNotation SpecText SpecBind SpecClient SpecExpr SpecConfig
  NotationProofs MacroProofs TextProofs BindProofs ParseWf ParseFrame ParseTotal MatchProofs PropNotation PropClient ExprProofs ActionProofs.
Local Open Scope N_scope.
Local Open Scope list_scope.
Local Notation length := List.length.
Local Opaque parse_key_sequence us_rows unicode_runs unicode_lookup_index keycode_table.

(* ---- folding, and the last entry that counts ----------------------------------------------- *)
Section Last.
Context {S A X : Type} (F : config -> S -> res config) (h : S -> list A) (g : config -> X) (P : A -> Prop) (R : X -> A -> Prop).
Variables (le : config -> config -> Prop) (cf : config) (I : config -> Prop) (Q : S -> Prop).
Hypothesis le_trans : forall a b c, le a b -> le b c -> le a c.
Hypothesis F_le : forall c s c', F c s = Ok c' -> le c c'.
Hypothesis F_I : forall c s c', I c -> F c s = Ok c' -> I c'.
Definition outcome (c c' : config) (o : option A) : Prop := match o with None => g c' = g c | Some a => R (g c') a end.
Hypothesis step : forall c s c', I c -> Q s -> F c s = Ok c' -> le c' cf -> forall o, last_with P (h s) o -> outcome c c' o.
Lemma last_app (l1 l2 : list A) o : last_with P (l1 ++ l2) o ->
  (exists a, o = Some a /\ last_with P l2 o) \/ (last_with P l1 o /\ last_with P l2 None).
Proof.
  destruct o as [a|]; cbn [last_with].
  - intros [pre [post [E [H1 H2]]]]. revert pre E. induction l1 as [|x l1 IH]; intros pre E; cbn [app] in E.
    + left. exists a. split; auto. exists pre, post. auto.
    + destruct pre as [|y pre]; cbn [app] in E; injection E as -> E.
      * right. subst post. split; [exists [], l1; split; auto; split; auto|]; intros b Hb; apply H2, in_or_app; auto.
      * destruct (IH pre E) as [[b [Hb Qb]]|[[p [q [E2 [Q1 Q2]]]] Q3]]; [left; eauto|right]. split; auto. exists (y :: p), q. rewrite E2. auto.
  - intros H. right. split; intros a Ha; apply H, in_or_app; auto.
Qed.
Hypothesis le_refl : forall c, le c c.
Lemma fold_le ss : forall c c', foldr_res F ss c = Ok c' -> le c c'.
Proof.
  induction ss as [|s ss IH]; intros c c' H; cbn [foldr_res] in H; [apply Ok_inj in H; subst; apply le_refl|].
  bstep H c1 E. eapply le_trans; [eapply F_le; eauto|eauto].
Qed.
Lemma fold_I ss : forall c c', I c -> foldr_res F ss c = Ok c' -> I c'.
Proof.
  induction ss as [|s ss IH]; intros c c' HI H; cbn [foldr_res] in H; [apply Ok_inj in H; now subst|]. bstep H c1 E. eauto.
Qed.
Lemma fold_last ss : Forall Q ss -> forall c c', I c -> foldr_res F ss c = Ok c' -> le c' cf -> forall o, last_with P (flat_map h ss) o -> outcome c c' o.
Proof.
  induction ss as [|s ss IH]; intros HQ c c' HI H L o HO; cbn [foldr_res flat_map] in *.
  - apply Ok_inj in H. subst. destruct o as [a|]; [destruct HO as [[|] [post [E _]]]; discriminate|reflexivity].
  - apply Forall_cons_iff in HQ as [HQ1 HQ2]. bstep H c1 E. assert (L1 : le c1 cf) by (eapply le_trans; [eapply fold_le; eauto|auto]).
    destruct (last_app _ _ _ HO) as [[a [-> HO']]|[H1 H2]].
    + specialize (IH HQ2 _ _ (F_I _ _ _ HI E) H L (Some a) HO'). exact IH.
    + specialize (IH HQ2 _ _ (F_I _ _ _ HI E) H L None H2). pose proof (step _ _ _ HI HQ1 E L1 _ H1) as HS. cbn [outcome] in IH.
      destruct o; cbn [outcome] in *; congruence.
Qed.
End Last.
Lemma last_one {A} (P : A -> Prop) a o : last_with P [a] o -> (o = Some a /\ P a) \/ (o = None /\ ~ P a).
Proof.
  destruct o as [b|]; cbn [last_with].
  - intros [[|x pre] [post [E [H1 _]]]]; injection E as -> E; [auto|]. destruct pre; discriminate.
  - intros H. right. split; auto. apply H. now left.
Qed.
Lemma last_nil {A} (P : A -> Prop) o : last_with P [] o -> o = None.
Proof. destruct o; auto. intros [[|] [post [E _]]]; discriminate. Qed.

(* ---- keys of entries are not empty ------------------------------------------------------------ *)
Lemma entry_key l k v : entry l (k, v) -> tight l -> l <> [] -> k <> [].
Proof.
  intros H [T _] N. remember (k, v) as e eqn:E. destruct H as [k0 b1 b2 v0 A B C D D2 F|k0 A]; injection E as Ek Ev; subst k v; [|auto].
  intros ->. destruct b1 as [|x b1]; [now destruct A|]. apply (T x (b1 ++ 61 :: b2 ++ v0)); [reflexivity|]. apply Forall_inv in D.
  unfold SpecText.blank, white in *. lia.
Qed.
Lemma meaning_lines ls ts : meaning ls ts -> Forall (fun t => tight t /\ t <> []) ts.
Proof. induction 1; auto. Qed.
Definition named (s : str * list (str * option str)) : Prop := Forall (fun e => fst e <> []) (snd s).
Lemma file_named ts secs : file ts secs -> Forall (fun t => tight t /\ t <> []) ts -> Forall named secs.
Proof.
  induction 1 as [|n es ts secs r F Hf IH]; intros H; [constructor|]. apply Forall_inv_tail in H. apply Forall_app in H as [H1 H2].
  constructor; [|auto]. unfold named. cbn [snd]. clear - F H1. induction F as [|l [k v] ls es [E _] F IH]; [constructor|].
  apply Forall_cons_iff in H1 as [[A B] H1]. constructor; auto. cbn [fst]. eapply entry_key; eauto.
Qed.
Lemma sections_named text secs : sections_of text secs -> Forall named secs.
Proof. intros [ls [ts [_ [M F]]]]. eapply file_named; eauto. eapply meaning_lines; eauto. Qed.
Lemma entries_named n secs : Forall named secs -> Forall (fun e => fst e <> []) (entries_of n secs).
Proof.
  intros F. unfold entries_of. induction F as [|s secs H F IH]; cbn [flat_map]; [constructor|]. apply Forall_app. split; auto.
  destruct (str_eqb _ _); [exact H|constructor].
Qed.

(* ---- the default configuration ----------------------------------------------------------------- *)
Definition start : config := match config_init with Ok c => c | _ => zero_config end.
Lemma start_ok : config_init = Ok start.
Proof. unfold start. destruct config_init as [c| | |] eqn:E; [reflexivity|exfalso..]; vm_compute in E; discriminate. Qed.
Lemma parse_from text c : config_parse text = Ok (Some c) -> exists secs c1, sections_of text secs
  /\ foldr_res pass1_section (map sec_of secs) start = Ok c1 /\ foldr_res pass2_section (map sec_of secs) c1 = Ok c.
Proof.
  unfold config_parse. rewrite start_ok. cbn [bind]. intros H. unfold config_parse_string in H. bstep H o Eo. destruct o as [out|]; [|discriminate].
  apply sections_only in Eo as [secs [S ->]]. bstep H c1 E1. bstep H c2 E2. apply Ok_inj in H. injection H as <-. eauto.
Qed.
Lemma foldr_map {A B} (f : config -> B -> res config) (m : A -> B) l : forall c, foldr_res f (map m l) c = foldr_res (fun c a => f c (m a)) l c.
Proof. induction l as [|x l IH]; intros c; cbn [map foldr_res]; auto. destruct (f c (m x)); cbn [bind]; auto. Qed.

(* ---- options ----------------------------------------------------------------------------------- *)
Definition opts (c : config) := (c_macro_timeout c, c_macro_repeat c, c_macro_seq_timeout c, c_oneshot_timeout c, c_chord_interkey c,
  c_chord_hold c, c_tap_timeout c, (c_no_guard c, c_indicator c, c_default_layout c)).
Lemma fold_same {A X} (f : config -> A -> res config) (g : config -> X) : (forall c a c', f c a = Ok c' -> g c' = g c) ->
  forall l c c', foldr_res f l c = Ok c' -> g c' = g c.
Proof.
  intros Hf. induction l as [|a l IH]; intros c c' H; cbn [foldr_res] in H; [now apply Ok_inj in H; subst|]. bstep H c1 E.
  rewrite (IH _ _ H). eauto.
Qed.
Lemma id_opts c e c' : parse_id_entry c e = Ok c' -> opts c' = opts c.
Proof.
  unfold parse_id_entry, add_id. repeat match goal with |- context[if ?b then _ else _] => destruct b end; intros H; try discriminate;
    apply Ok_inj in H; subst; reflexivity.
Qed.
Lemma alias_opts c e c' : parse_alias_entry c e = Ok c' -> opts c' = opts c.
Proof.
  unfold parse_alias_entry. destruct e as [k [v|]]; (destruct (_ =? 0); [intros H; apply Ok_inj in H; now subst|]); [|discriminate].
  destruct (Nat.leb _ _); [intros H; apply Ok_inj in H; now subst|]. cbv zeta. intros H. apply Ok_inj in H. subst.
  destruct (_ =? 0); [reflexivity|]. destruct (c_layers c); reflexivity.
Qed.
Lemma layer_opts c s c' : config_add_layer c s = Ok c' -> opts c' = opts c.
Proof.
  unfold config_add_layer. destruct (Nat.leb _ _); [intros H; apply Ok_inj in H; now subst|]. cbv zeta.
  destruct (match tokens 58 s with [] => None | n :: _ => config_get_layer_index c n end); [intros H; apply Ok_inj in H; now subst|].
  destruct (Nat.leb _ _); [intros H; apply Ok_inj in H; now subst|]. intros H. bstep H o E. apply Ok_inj in H. subst. destruct o; reflexivity.
Qed.
(* a binding changes layers and tables only *)
Lemma add_rest c e c' ok : config_add_entry c e = Ok (c', ok) -> rest_same c c' /\ tables_extended c c'.
Proof.
  intros E. destruct ok.
  - destruct (target_total e) as [ln [s T]]. destruct (entry_total s) as [[k v] En]. destruct (bind_ok _ _ _ _ _ _ _ E T En) as [i [l [d [l' H]]]]. tauto.
  - assert (G : grows c c').
    { rewrite add_entry_unfold in E. destruct (N.leb _ _); [apply Ok_inj in E; injection E as <-; apply grows_refl|].
      destruct (split_entry e) as [l s]. destruct (parse_kvp s) as [key val]. destruct (config_get_layer_index _ _); [|apply Ok_inj in E; injection E as <-; apply grows_refl].
      bstep E r Er. destruct r as [c1 o].
      assert (G1 : grows c c1) by (destruct val; [eapply parse_desc_grows; exact Er|apply Ok_inj in Er; injection Er as <- _; apply grows_refl]).
      destruct o; [|apply Ok_inj in E; injection E as <-; exact G1].
      destruct (set_layer_entry _ _ _ _); [discriminate|]. apply Ok_inj in E. injection E as <-. exact G1. }
    destruct G as [a [b [x ->]]]. split.
    + exists (c_layers c), (c_descs c ++ a), (c_macros c ++ b), (c_cmds c ++ x). reflexivity.
    + split; [now exists a|]. split; [now exists b|now exists x].
Qed.
Lemma rest_opts c c' : rest_same c c' -> opts c' = opts c /\ c_aliases c' = c_aliases c.
Proof. intros [ls [d [m [k ->]]]]. split; reflexivity. Qed.
Lemma pass2_frame {X} (g : config -> X) : (forall c c', rest_same c c' -> g c' = g c) -> forall c s c', pass2_section c s = Ok c' -> g c' = g c.
Proof.
  intros Hg c s c' H. unfold pass2_section in H. destruct (_ || _); [apply Ok_inj in H; now subst|].
  revert H. apply fold_same. intros c0 e c1 H. unfold pass2_entry in H. destruct (snd e); [|apply Ok_inj in H; now subst].
  destruct (hd_error _); [|discriminate]. bstep H r E. destruct r as [c2 ok]. apply Ok_inj in H. subst c2. apply Hg. now apply add_rest in E.
Qed.
Lemma pass1_sec c n es : pass1_section c (sec_of (n, es)) =
  if str_eqb n (bs "ids") then foldr_res parse_id_entry es c
  else if str_eqb n (bs "aliases") then foldr_res parse_alias_entry es c
  else if str_eqb n (bs "global") then foldr_res parse_global_entry es c
  else config_add_layer c n.
Proof. reflexivity. Qed.
Definition any (c c' : config) : Prop := True.
(* options set by one entry *)
Lemma number_entry name get dflt : In (name, get, dflt) numbers -> forall c e c', parse_global_entry c e = Ok c' ->
  (fst e = name -> exists v, snd e = Some v /\ number v (get c')) /\ (fst e <> name -> get c' = get c).
Proof.
  intros HI c [k v] c' H. cbn [fst snd]. unfold parse_global_entry in H. cbv zeta in H.
  unfold numbers in HI. cbn [In] in HI.
  repeat (match type of H with (if str_eqb k ?n then _ else _) = _ => let E := fresh "E" in destruct (str_eqb k n) eqn:E; [apply NotationProofs.str_eqb_eq in E; subst k|] end;
    [destruct v as [v|]; [|discriminate H]; apply Ok_inj in H; subst c';
     repeat destruct HI as [HI|HI]; try contradiction; injection HI as <- <- <-;
     (split; [intros X; first [discriminate X | exists v; split; [reflexivity|]; apply number_iff; reflexivity]
             |intros X; first [reflexivity | now destruct X]])|]).
  apply Ok_inj in H. subst c'. split; auto. intros ->. exfalso.
  repeat destruct HI as [HI|HI]; try contradiction; injection HI as <- <- <-;
    repeat match goal with E : str_eqb _ _ = false |- _ => vm_compute in E; try discriminate E; clear E end.
Qed.
Lemma flag_entry name get : In (name, get) flags -> forall c e c', parse_global_entry c e = Ok c' ->
  (fst e = name -> exists v z, snd e = Some v /\ number v z /\ (get c' = true <-> (z mod 256 <> 0)%Z)) /\ (fst e <> name -> get c' = get c).
Proof.
  intros HI c [k v] c' H. cbn [fst snd]. unfold parse_global_entry in H. cbv zeta in H.
  unfold flags in HI. cbn [In] in HI.
  assert (U : forall z, u8_flag z = true <-> (z mod 256 <> 0)%Z) by (intros z; unfold u8_flag; rewrite negb_true_iff, Z.eqb_neq; tauto).
  repeat (match type of H with (if str_eqb k ?n then _ else _) = _ => let E := fresh "E" in destruct (str_eqb k n) eqn:E; [apply NotationProofs.str_eqb_eq in E; subst k|] end;
    [destruct v as [v|]; [|discriminate H]; apply Ok_inj in H; subst c';
     repeat destruct HI as [HI|HI]; try contradiction; injection HI as <- <-;
     (split; [intros X; first [discriminate X | exists v, (atoi v); split; [reflexivity|]; split; [apply number_iff; reflexivity|apply U]]
             |intros X; first [reflexivity | now destruct X]])|]).
  apply Ok_inj in H. subst c'. split; auto. intros ->. exfalso.
  repeat destruct HI as [HI|HI]; try contradiction; injection HI as <- <-;
    repeat match goal with E : str_eqb _ _ = false |- _ => vm_compute in E; try discriminate E; clear E end.
Qed.
Lemma layout_entry c e c' : parse_global_entry c e = Ok c' ->
  (fst e = bs "default_layout" -> exists v, snd e = Some v /\ c_default_layout c' = short v) /\ (fst e <> bs "default_layout" -> c_default_layout c' = c_default_layout c).
Proof.
  destruct e as [k v]. intros H. cbn [fst snd]. unfold parse_global_entry in H. cbv zeta in H.
  repeat (match type of H with (if str_eqb k ?n then _ else _) = _ => let E := fresh "E" in destruct (str_eqb k n) eqn:E; [apply NotationProofs.str_eqb_eq in E; subst k|] end;
    [destruct v as [v|]; [|discriminate H]; apply Ok_inj in H; subst c';
     (split; [intros X; first [discriminate X | exists v; split; reflexivity]
             |intros X; first [reflexivity | now destruct X]])|]).
  apply Ok_inj in H. subst c'. split; auto. intros ->. exfalso.
    repeat match goal with E : str_eqb _ _ = false |- _ => vm_compute in E; try discriminate E; clear E end.
Qed.
Lemma option_fold {X} (get : config -> X) name (R : X -> str * option str -> Prop) :
  (forall c e c', parse_global_entry c e = Ok c' -> (fst e = name -> R (get c') e) /\ (fst e <> name -> get c' = get c)) ->
  (forall c c', opts c' = opts c -> get c' = get c) ->
  forall secs c c1 c', foldr_res pass1_section (map sec_of secs) c = Ok c1 -> foldr_res pass2_section (map sec_of secs) c1 = Ok c' ->
  forall o, last_with (fun e : str * option str => fst e = name) (entries_of (bs "global") secs) o ->
  match o with None => get c' = get c | Some e => R (get c') e end.
Proof.
  intros H1 H2 secs c c1 c' E1 E2 o HO.
  assert (G2 : get c' = get c1).
  { revert E2. rewrite foldr_map. apply fold_same. intros a s b. apply pass2_frame. intros x y Q. apply H2. now apply rest_opts in Q. }
  rewrite G2. rewrite foldr_map in E1. unfold entries_of in HO.
  apply (fold_last (fun c a => pass1_section c (sec_of a)) (fun s => if str_eqb (fst s) (bs "global") then snd s else []) get
    (fun e : str * option str => fst e = name) R (fun _ _ => True) c1 (fun _ => True) (fun _ => True)) with (ss := secs) (c := c); auto; [|now apply Forall_forall].
  clear - H1 H2. intros c [n es] c' _ _ E _ o HO. rewrite pass1_sec in E. cbn [fst snd] in HO.
  destruct (str_eqb n (bs "ids")) eqn:N1.
  { apply NotationProofs.str_eqb_eq in N1. subst n. apply last_nil in HO. subst o. cbn [outcome]. revert E. apply fold_same. intros. apply H2. eapply id_opts; eauto. }
  destruct (str_eqb n (bs "aliases")) eqn:N2.
  { apply NotationProofs.str_eqb_eq in N2. subst n. apply last_nil in HO. subst o. cbn [outcome]. revert E. apply fold_same. intros. apply H2. eapply alias_opts; eauto. }
  destruct (str_eqb n (bs "global")) eqn:N3.
  - replace es with (flat_map (fun e : str * option str => [e]) es) in HO by (clear; induction es; cbn; congruence).
    apply (fold_last parse_global_entry (fun e => [e]) get (fun e : str * option str => fst e = name) R (fun _ _ => True) c' (fun _ => True) (fun _ => True)) with (ss := es) (c := c); auto; [|now apply Forall_forall].
    intros c0 e c0' _ _ E0 _ o0 HO0. destruct (H1 _ _ _ E0) as [A B]. apply last_one in HO0 as [[-> Q]|[-> Q]]; cbn [outcome]; auto.
  - apply last_nil in HO. subst o. cbn [outcome]. apply H2. eapply layer_opts; eauto.
Qed.

(* ---- aliases ----------------------------------------------------------------------------------- *)
Lemma table_lookup k code : k <> [] -> table_name k code <-> lookup_keycode k = code /\ code <> 0.
Proof.
  intros N. split; [now apply lookup_complete|]. intros [<- H]. now apply lookup_sound.
Qed.
Definition value_of (e : str * option str) : list (str * str) := match snd e with Some v => [(fst e, v)] | None => [] end.
Lemma valued_app a b : valued (a ++ b) = valued a ++ valued b.
Proof. apply flat_map_app. Qed.
Lemma valued_sections (t : str -> bool) (secs : sections) : valued (flat_map (fun s => if t (fst s) then snd s else []) secs)
  = flat_map (fun s => if t (fst s) then valued (snd s) else []) secs.
Proof. induction secs as [|s secs IH]; cbn [flat_map]; auto. rewrite valued_app, IH. destruct (t (fst s)); auto. Qed.
Lemma alias_entry code c e c' : fst e <> [] -> parse_alias_entry c e = Ok c' ->
  forall o, last_with (alias_for code) (value_of e) o -> outcome (fun c => c_aliases c code) (fun a e => a = snd e) c c' o.
Proof.
  destruct e as [k v]. cbn [fst]. intros N H o HO. unfold parse_alias_entry in H. unfold value_of in HO. cbn [fst snd] in HO.
  assert (X : forall v, lookup_keycode k = 0 -> ~ alias_for code (k, v)).
  { intros v0 L [A _]. cbn [fst] in A. apply table_lookup in A as [A B]; auto. congruence. }
  destruct (N.eqb_spec (lookup_keycode k) 0) as [L|L].
  { apply Ok_inj in H. subst c'. destruct v as [v|]; [apply last_one in HO as [[_ A]|[-> _]]; [now apply X in A|reflexivity]|apply last_nil in HO; now subst]. }
  destruct v as [v|]; [|discriminate]. destruct (Nat.leb_spec 32 (length v)) as [G|G].
  { apply Ok_inj in H. subst c'. apply last_one in HO as [[_ [_ A]]|[-> _]]; [cbn [snd] in A; lia|reflexivity]. }
  cbv zeta in H. apply Ok_inj in H. subst c'. apply last_one in HO as [[-> [A _]]|[-> A]]; cbn [outcome c_aliases set_c_aliases].
  - cbn [fst] in A. apply table_lookup in A as [<- _]; auto. unfold fupd. now rewrite N.eqb_refl.
  - unfold fupd. destruct (N.eqb_spec code (lookup_keycode k)) as [->|D].
    + destruct A. split; [|exact G]. cbn [fst]. now apply table_lookup.
    + destruct (lookup_keycode v =? 0); [reflexivity|]. destruct (c_layers c); reflexivity.
Qed.
(* one pass over the sections, looking at the aliases *)
Lemma alias_fold {X} (g : config -> X) (P : str * str -> Prop) (R : X -> str * str -> Prop) (I : config -> Prop) (Q : str * option str -> Prop) :
  (forall c e c', I c -> Q e -> parse_alias_entry c e = Ok c' -> forall o, last_with P (value_of e) o -> outcome g R c c' o) ->
  (forall c e c', parse_id_entry c e = Ok c' -> g c' = g c) -> (forall c e c', parse_global_entry c e = Ok c' -> g c' = g c) ->
  (forall c n c', I c -> config_add_layer c n = Ok c' -> g c' = g c) ->
  (forall c s c', I c -> pass1_section c s = Ok c' -> I c') -> (forall c e c', I c -> parse_alias_entry c e = Ok c' -> I c') ->
  forall secs c c', I c -> Forall Q (entries_of (bs "aliases") secs) -> foldr_res pass1_section (map sec_of secs) c = Ok c' ->
  forall o, last_with P (valued (entries_of (bs "aliases") secs)) o -> outcome g R c c' o.
Proof.
  intros H1 H2 H3 H4 H5 H6 secs c c' HI HQ E o HO. rewrite foldr_map in E. unfold entries_of in HO.
  rewrite (valued_sections (fun n => str_eqb n (bs "aliases"))) in HO.
  apply (fold_last (fun c a => pass1_section c (sec_of a)) (fun s => if str_eqb (fst s) (bs "aliases") then valued (snd s) else []) g P R
    (fun _ _ => True) c' I (fun s => fst s = bs "aliases" -> Forall Q (snd s))) with (ss := secs) (c := c); auto.
  - intros c0 s c0' I0 E0. eapply H5; eauto.
  - clear - H1 H2 H3 H4 H6. intros c [n es] c' HI HQ E _ o HO. rewrite pass1_sec in E. cbn [fst snd] in *.
    destruct (str_eqb n (bs "ids")) eqn:N1.
    { apply NotationProofs.str_eqb_eq in N1. subst n. apply last_nil in HO. subst o. cbn [outcome]. revert E. now apply fold_same. }
    destruct (str_eqb n (bs "aliases")) eqn:N2.
    { apply NotationProofs.str_eqb_eq in N2. apply (fold_last parse_alias_entry value_of g P R (fun _ _ => True) c' I Q) with (ss := es) (c := c); auto; intros; eauto. }
    apply last_nil in HO. subst o. cbn [outcome].
    destruct (str_eqb n (bs "global")); [revert E; now apply fold_same|eauto].
  - clear - HQ. unfold entries_of in HQ. apply Forall_forall. intros s I Hs. rewrite Forall_forall in HQ. apply Forall_forall. intros e He.
    apply HQ. apply in_flat_map. exists s. split; auto. rewrite (proj2 (NotationProofs.str_eqb_eq _ _) Hs). exact He.
Qed.
Lemma id_layers c e c' : parse_id_entry c e = Ok c' -> c_aliases c' = c_aliases c /\ c_layers c' = c_layers c.
Proof.
  unfold parse_id_entry, add_id. repeat match goal with |- context[if ?b then _ else _] => destruct b end; intros H; try discriminate;
    apply Ok_inj in H; subst; split; reflexivity.
Qed.
Lemma global_layers c e c' : parse_global_entry c e = Ok c' -> c_aliases c' = c_aliases c /\ c_layers c' = c_layers c.
Proof.
  destruct e as [k v]. unfold parse_global_entry. cbv zeta.
  repeat match goal with |- context[if ?b then _ else _] => destruct b end; try destruct v; intros H; try discriminate; apply Ok_inj in H; subst; split; reflexivity.
Qed.
Lemma add_layer_layers c s c' : config_add_layer c s = Ok c' -> c_aliases c' = c_aliases c /\ exists x, c_layers c' = c_layers c ++ x
  /\ Forall (fun l => ly_chords l = [] /\ forall code, ly_keymap l code = DNone) x.
Proof.
  unfold config_add_layer. intros H. assert (N : forall c1, Ok c = Ok c1 -> c_aliases c1 = c_aliases c /\ exists x, c_layers c1 = c_layers c ++ x
    /\ Forall (fun l => ly_chords l = [] /\ forall code, ly_keymap l code = DNone) x).
  { intros c1 E. apply Ok_inj in E. subst. split; auto. exists []. rewrite app_nil_r. auto. }
  destruct (Nat.leb _ _); [now apply N|]. cbv zeta in H.
  destruct (match tokens 58 s with [] => None | n :: _ => config_get_layer_index c n end); [now apply N|].
  destruct (Nat.leb _ _); [now apply N|]. bstep H o E. destruct o as [l|]; [|now apply N]. apply Ok_inj in H. subst c'. split; [reflexivity|].
  exists [l]. split; [reflexivity|]. constructor; [|constructor]. clear - E. unfold new_layer in E. destruct (tokens 58 s) as [|n r]; [discriminate|].
  cbv zeta in E. destruct (has_char 43 n).
  - destruct r; [|discriminate]. bstep E o Eo. apply Ok_inj in E. destruct o; [|discriminate]. injection E as <-. split; reflexivity.
  - destruct r as [|t r]; [apply Ok_inj in E; injection E as <-; split; reflexivity|].
    destruct (str_eqb t _); [apply Ok_inj in E; injection E as <-; split; reflexivity|].
    destruct (parse_modset t); apply Ok_inj in E; injection E as <-; split; reflexivity.
Qed.
Lemma aliases_parsed secs c c' code : Forall named secs -> foldr_res pass1_section (map sec_of secs) c = Ok c' ->
  forall o, last_with (alias_for code) (valued (entries_of (bs "aliases") secs)) o -> outcome (fun c => c_aliases c code) (fun a e => a = snd e) c c' o.
Proof.
  intros N E. eapply (alias_fold (fun c => c_aliases c code) (alias_for code) (fun a e => a = snd e) (fun _ => True) (fun e => fst e <> [])); auto.
  - intros. eapply alias_entry; eauto.
  - intros c0 e c1 H. cbn. now rewrite (proj1 (id_layers _ _ _ H)).
  - intros c0 e c1 H. cbn. now rewrite (proj1 (global_layers _ _ _ H)).
  - intros c0 e c1 _ H. cbn. now rewrite (proj1 (add_layer_layers _ _ _ H)).
  - now apply entries_named.
Qed.
(* the keys of main before the bindings *)
Definition main_key (code : N) (c : config) : desc := match c_layers c with l :: _ => ly_keymap l code | [] => DNone end.
Definition some_layer (c : config) : Prop := c_layers c <> [].
Lemma alias_main code c e c' : some_layer c -> fst e <> [] /\ snd e <> Some [] -> parse_alias_entry c e = Ok c' ->
  forall o, last_with (alias_binds code) (value_of e) o -> outcome (main_key code) (fun d e => exists a, table_name (snd e) a /\ d = DKey a 0) c c' o.
Proof.
  destruct e as [k v]. cbn [fst snd]. intros S [N NV] H o HO. unfold parse_alias_entry in H. unfold value_of in HO. cbn [fst snd] in HO.
  assert (X : forall v, lookup_keycode k = 0 -> ~ alias_for code (k, v)).
  { intros v0 L [A _]. cbn [fst] in A. apply table_lookup in A as [A B]; auto. congruence. }
  destruct (N.eqb_spec (lookup_keycode k) 0) as [L|L].
  { apply Ok_inj in H. subst c'. destruct v as [v|]; [apply last_one in HO as [[_ [A _]]|[-> _]]; [now apply X in A|reflexivity]|apply last_nil in HO; now subst]. }
  destruct v as [v|]; [|discriminate]. destruct (Nat.leb_spec 32 (length v)) as [G|G].
  { apply Ok_inj in H. subst c'. apply last_one in HO as [[_ [[_ A] _]]|[-> _]]; [cbn [snd] in A; lia|reflexivity]. }
  assert (NV' : v <> []) by congruence. cbv zeta in H. apply Ok_inj in H. unfold some_layer in S. destruct (c_layers c) as [|l ls] eqn:El; [congruence|].
  destruct (N.eqb_spec (lookup_keycode v) 0) as [La|La].
  - subst c'. apply last_one in HO as [[-> [_ [a A]]]|[-> A]].
    + cbn [snd] in A. apply table_lookup in A as [A B]; auto. congruence.
    + reflexivity.
  - subst c'. apply last_one in HO as [[-> [[A _] _]]|[-> A]]; unfold outcome, main_key; cbn [c_layers set_c_aliases set_c_layers ly_keymap set_ly_keymap]; unfold fupd.
    + cbn [fst snd] in *. apply table_lookup in A as [A _]; auto. subst code. rewrite N.eqb_refl. exists (lookup_keycode v). split; auto. now apply table_lookup.
    + rewrite El. destruct (N.eqb_spec code (lookup_keycode k)) as [->|D]; [|reflexivity]. destruct A. split; [split; [now apply table_lookup|exact G]|].
      exists (lookup_keycode v). now apply table_lookup.
Qed.
Lemma alias_layers c e c' : parse_alias_entry c e = Ok c' -> c_layers c' = c_layers c \/
  exists l r f, c_layers c = l :: r /\ c_layers c' = set_ly_keymap f l :: r.
Proof.
  destruct e as [k v]. unfold parse_alias_entry. destruct (_ =? 0); [intros H; apply Ok_inj in H; subst; auto|]. destruct v as [v|]; [|discriminate].
  destruct (Nat.leb _ _); [intros H; apply Ok_inj in H; subst; auto|]. cbv zeta. intros H. apply Ok_inj in H. subst c'.
  destruct (_ =? 0); [now left|]. destruct (c_layers c) as [|l r] eqn:E; [left; cbn; auto|]. right. exists l, r. eexists. split; reflexivity.
Qed.
(* what the first pass does to the layers *)
Definition fresh_layers (c : config) : Prop := some_layer c /\ (forall l, In l (c_layers c) -> ly_chords l = [])
  /\ forall l, In l (tl (c_layers c)) -> forall code, code < 256 -> ly_keymap l code = DNone.
Lemma fresh_alias c e c' : fresh_layers c -> parse_alias_entry c e = Ok c' -> fresh_layers c'.
Proof.
  intros [A [B C]] H. apply alias_layers in H as [H|[l [r [f [H1 H2]]]]]; unfold fresh_layers, some_layer in *.
  - now rewrite H.
  - rewrite H2. rewrite H1 in *. split; [discriminate|]. split; [|exact C]. intros x [<-|Hx]; [apply (B l); now left|apply B; now right].
Qed.
Lemma fresh_same c c' : c_layers c' = c_layers c -> fresh_layers c -> fresh_layers c'.
Proof. unfold fresh_layers, some_layer. now intros ->. Qed.
Lemma fold_pres {A} (f : config -> A -> res config) (I : config -> Prop) : (forall c a c', I c -> f c a = Ok c' -> I c') ->
  forall l c c', I c -> foldr_res f l c = Ok c' -> I c'.
Proof.
  intros Hf. induction l as [|a l IH]; intros c c' HI H; cbn [foldr_res] in H; [now apply Ok_inj in H; subst|]. bstep H c1 E. eauto.
Qed.
Lemma fresh_pass1 c s c' : fresh_layers c -> pass1_section c s = Ok c' -> fresh_layers c'.
Proof.
  destruct s as [n es]. intros HI E. change (mkSec n es) with (sec_of (n, es)) in E. rewrite pass1_sec in E.
  destruct (str_eqb n _); [revert E; apply fold_pres; auto; intros x e y Hx Hy; apply id_layers in Hy as [_ Hy]; eapply fresh_same; eauto|].
  destruct (str_eqb n _); [revert E; apply fold_pres; auto; apply fresh_alias|].
  destruct (str_eqb n _); [revert E; apply fold_pres; auto; intros x e y Hx Hy; apply global_layers in Hy as [_ Hy]; eapply fresh_same; eauto|].
  apply add_layer_layers in E as [_ [x [E F]]]. destruct HI as [A [B C]]. rewrite Forall_forall in F. unfold fresh_layers, some_layer in *. rewrite E. split; [|split].
  - destruct (c_layers c); [congruence|discriminate].
  - intros l Hl. apply in_app_or in Hl as [Hl|Hl]; [auto|now apply F].
  - intros l Hl code Hc. destruct (c_layers c) as [|l0 ls]; [congruence|]. cbn [app tl] in *. apply in_app_or in Hl as [Hl|Hl]; [auto|now apply F].
Qed.
Lemma main_parsed secs c c' code : fresh_layers c -> Forall named secs -> Forall (fun e => snd e <> Some []) (entries_of (bs "aliases") secs) ->
  foldr_res pass1_section (map sec_of secs) c = Ok c' ->
  forall o, last_with (alias_binds code) (valued (entries_of (bs "aliases") secs)) o ->
  outcome (main_key code) (fun d e => exists a, table_name (snd e) a /\ d = DKey a 0) c c' o.
Proof.
  intros Fr N NE E. eapply (alias_fold (main_key code) (alias_binds code) _ fresh_layers (fun e => fst e <> [] /\ snd e <> Some [])); auto.
  - intros c0 e c1 [Hs _] HQ H. now apply alias_main.
  - intros c0 e c1 H. unfold main_key. now rewrite (proj2 (id_layers _ _ _ H)).
  - intros c0 e c1 H. unfold main_key. now rewrite (proj2 (global_layers _ _ _ H)).
  - intros c0 e c1 [Hs _] H. apply add_layer_layers in H as [_ [x [H _]]]. unfold main_key, some_layer in *. rewrite H. destruct (c_layers c0); [congruence|reflexivity].
  - intros. eapply fresh_pass1; eauto.
  - intros. eapply fresh_alias; eauto.
  - apply Forall_forall. intros e He. pose proof (entries_named (bs "aliases") secs N) as X. rewrite Forall_forall in X, NE. split; auto.
Qed.
