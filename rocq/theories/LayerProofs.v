(* C60, continued: the layers, bindings and chords of a configuration file *)
From Coq Require Import String Lia.
From Verif Require Import Base Lib KeyTable Keys Types Str UnicodeTable MacroParse Ini Config SpecNotation SpecText SpecBind SpecClient SpecExpr SpecConfig
  NotationProofs MacroProofs TextProofs BindProofs ParseWf ParseFrame ParseTotal MatchProofs PropNotation PropClient ExprProofs ActionProofs ConfProofs.
Local Open Scope N_scope.
Local Open Scope list_scope.
Local Notation length := List.length.
Local Opaque parse_key_sequence us_rows unicode_runs unicode_lookup_index keycode_table.

Definition heads (c : config) : list head := map head_of (c_layers c).
Lemma index_position n : forall ls k, match layer_index_from ls n k with
  | Some j => exists i, j = (k + i)%nat /\ position (map head_of ls) n i
  | None => forall i, ~ position (map head_of ls) n i end.
Proof.
  induction ls as [|l ls IH]; intros k; cbn [layer_index_from map]; [intros i H; inversion H|].
  destruct (str_eqb (ly_name l) n) eqn:E.
  - apply NotationProofs.str_eqb_eq in E. exists O. split; [lia|]. now constructor.
  - assert (Hn : ly_name l <> n) by (intros X; rewrite X in E; rewrite (proj2 (NotationProofs.str_eqb_eq _ _) eq_refl) in E; discriminate).
    specialize (IH (S k)). destruct (layer_index_from ls n (S k)) as [j|].
    + destruct IH as [i [-> H]]. exists (S i). split; [lia|]. now apply first_later.
    + intros i H. inversion H; subst; [now destruct Hn|]. eapply IH; eauto.
Qed.
Lemma position_unique hs n i j : position hs n i -> position hs n j -> i = j.
Proof.
  intros H. revert j. induction H; intros j G; inversion G; subst; try tauto. f_equal. auto.
Qed.
Lemma position_iff c n i : config_get_layer_index c n = Some i <-> position (heads c) n i.
Proof.
  unfold config_get_layer_index. pose proof (index_position n (c_layers c) 0) as H. destruct (layer_index_from _ _ _) as [j|].
  - destruct H as [k [-> H]]. split; [intros G; injection G as <-; exact H|]. intros G. f_equal. apply (position_unique _ _ _ _ H G).
  - split; [discriminate|]. intros G. now apply H in G.
Qed.
Lemma constituents_ok c : forall ns acc o, constituents c ns acc = Ok o ->
  match o with Some cs => exists is, cs = acc ++ is /\ Forall2 (position (heads c)) ns is | None => forall is, ~ Forall2 (position (heads c)) ns is end.
Proof.
  induction ns as [|n ns IH]; intros acc o H; cbn [constituents] in H.
  - apply Ok_inj in H. subst o. exists []. rewrite app_nil_r. split; auto.
  - destruct (config_get_layer_index c n) as [i|] eqn:E.
    + apply position_iff in E. destruct (Nat.ltb _ _); [|discriminate]. apply IH in H. destruct o as [cs|].
      * destruct H as [is [-> F]]. exists (i :: is). rewrite <- app_assoc. split; auto.
      * intros is F. inversion F; subst. eapply H; eauto.
    + apply Ok_inj in H. subst o. intros is F. inversion F; subst. match goal with X : position _ n _ |- _ => apply position_iff in X end. congruence.
Qed.
Lemma modset_iff t m : parse_modset t = Some m <-> modset t m.
Proof. apply C35_language. Qed.
Lemma kind_of r : exists t m, kind r t m.
Proof.
  destruct r as [|t r]; [eauto using kind|]. destruct (str_eqb t (bs "layout")) eqn:E.
  - apply NotationProofs.str_eqb_eq in E. subst. eauto using kind.
  - assert (Hn : t <> bs "layout") by (intros ->; rewrite (proj2 (NotationProofs.str_eqb_eq _ _) eq_refl) in E; discriminate).
    destruct (parse_modset t) as [m|] eqn:M.
    + apply modset_iff in M. exists LNormal, m. now apply kind_mods.
    + exists LNormal, 0. apply kind_other; auto. intros m G. apply modset_iff in G. congruence.
Qed.
Lemma has_plus n : has_char 43 n = true <-> In 43 n.
Proof. unfold has_char. rewrite existsb_exists. split; [intros [x [I E]]; apply N.eqb_eq in E; now subst|intros I; exists 43; now rewrite N.eqb_refl]. Qed.
Lemma new_layer_ok s c o : new_layer s c = Ok o ->
  match o with Some l => declares (heads c) s (head_of l) | None => forall h, ~ declares (heads c) s h end.
Proof.
  unfold new_layer. destruct (tokens 58 s) as [|n r] eqn:T; [discriminate|]. cbv zeta. pose proof T as T0. apply tokens_parts in T0.
  destruct (has_char 43 n) eqn:P.
  - apply has_plus in P. destruct r as [|t r].
    + intros H. bstep H x E. apply Ok_inj in H. subst o. apply constituents_ok in E. destruct x as [cs|].
      * destruct E as [is [-> F]]. cbn [app]. unfold head_of. cbn [ly_name ly_type ly_mods ly_const].
        eapply declares_composite; eauto. now apply tokens_parts.
      * intros h D. inversion D as [s0 n0 r0 t m Hp Hn K|s0 n0 ns is Hp Hn Hq F]; subst; apply tokens_parts in Hp; rewrite T in Hp; injection Hp as ->.
        -- now destruct Hn.
        -- apply tokens_parts in Hq. subst ns. now apply (E is).
    + intros H. apply Ok_inj in H. subst o. intros h D. inversion D as [s0 n0 r0 t0 m Hp Hn K|s0 n0 ns is Hp Hn Hq F]; subst; apply tokens_parts in Hp; rewrite T in Hp.
      * injection Hp as -> _. now destruct Hn.
      * discriminate.
  - assert (NP : ~ In 43 n) by (intros G; apply has_plus in G; congruence).
    assert (K : forall t m, kind r t m -> declares (heads c) s (head_of (mkLayer n t m (fun _ => DNone) [] []))) by (intros; eapply declares_plain; eauto).
    destruct r as [|t r]; [intros H; apply Ok_inj in H; subst o; apply K; constructor|].
    destruct (str_eqb t (bs "layout")) eqn:L; [intros H; apply Ok_inj in H; subst o; apply NotationProofs.str_eqb_eq in L; subst t; apply K; constructor|].
    assert (Hn : t <> bs "layout") by (intros ->; rewrite (proj2 (NotationProofs.str_eqb_eq _ _) eq_refl) in L; discriminate).
    destruct (parse_modset t) as [m|] eqn:M; intros H; apply Ok_inj in H; subst o; apply K.
    + apply kind_mods; auto. now apply modset_iff.
    + apply kind_other; auto. intros m G. apply modset_iff in G. congruence.
Qed.
Lemma alias_heads c e c' : parse_alias_entry c e = Ok c' -> heads c' = heads c.
Proof.
  intros H. apply alias_layers in H as [H|[l [r [f [H1 H2]]]]]; unfold heads; [now rewrite H|]. rewrite H1, H2. reflexivity.
Qed.
Lemma special_iff n : is_special n = true <-> special n.
Proof. unfold is_special, special. rewrite !orb_true_iff, !NotationProofs.str_eqb_eq. tauto. Qed.
Lemma add_layer_step c n c' : config_add_layer c n = Ok c' ->
  ((length n <= 64)%nat /\ new_name (heads c) n /\ (length (heads c) < 32)%nat /\ exists h, declares (heads c) n h /\ heads c' = heads c ++ [h])
  \/ heads c' = heads c /\ ((64 < length n)%nat \/ ~ new_name (heads c) n \/ (32 <= length (heads c))%nat \/ (forall h, ~ declares (heads c) n h)).
Proof.
  unfold config_add_layer. intros H. destruct (Nat.leb_spec 65 (length n)); [apply Ok_inj in H; subst; right; split; auto|]. cbv zeta in H.
  assert (L : length (heads c) = length (c_layers c)) by apply map_length.
  destruct (tokens 58 n) as [|n0 r] eqn:T.
  - destruct (Nat.leb_spec 32 (length (c_layers c))); [apply Ok_inj in H; subst; right; split; auto; right; right; left; lia|].
    unfold new_layer in H. rewrite T in H. discriminate.
  - destruct (config_get_layer_index c n0) as [i|] eqn:E.
    { apply Ok_inj in H. subst. right. split; auto. right. left. intros [n1 [r1 [P N]]]. apply tokens_parts in P. rewrite T in P. injection P as <- <-.
      apply position_iff in E. now apply N in E. }
    destruct (Nat.leb_spec 32 (length (c_layers c))); [apply Ok_inj in H; subst; right; split; auto; right; right; left; lia|].
    bstep H o Eo. apply new_layer_ok in Eo. apply Ok_inj in H. subst c'. destruct o as [l|].
    + left. split; [lia|]. split; [|split; [lia|]].
      * exists n0, r. split; [now apply tokens_parts|]. intros i P. apply position_iff in P. congruence.
      * exists (head_of l). split; auto. unfold heads. cbn [c_layers set_c_layers]. now rewrite map_app.
    + right. split; auto.
Qed.
Lemma pass1_heads secs : forall c c', foldr_res pass1_section (map sec_of secs) c = Ok c' -> layers_after (heads c) secs (heads c').
Proof.
  induction secs as [|[n es] secs IH]; intros c c' H; cbn [map foldr_res] in H; [apply Ok_inj in H; subst; constructor|].
  bstep H c1 E. apply IH in H. rewrite pass1_sec in E.
  assert (same : heads c1 = heads c -> special n -> layers_after (heads c) ((n, es) :: secs) (heads c')).
  { intros HE S. rewrite HE in H. now apply la_special. }
  destruct (str_eqb n (bs "ids")) eqn:N1.
  { apply NotationProofs.str_eqb_eq in N1. subst n. apply same; [|now left]. revert E. apply fold_same. intros x e y G. apply id_layers in G as [_ G]. unfold heads. now rewrite G. }
  destruct (str_eqb n (bs "aliases")) eqn:N2.
  { apply NotationProofs.str_eqb_eq in N2. subst n. apply same; [|now right; left]. revert E. apply fold_same. intros x e y G. now apply alias_heads in G. }
  destruct (str_eqb n (bs "global")) eqn:N3.
  { apply NotationProofs.str_eqb_eq in N3. subst n. apply same; [|now right; right]. revert E. apply fold_same. intros x e y G. apply global_layers in G as [_ G]. unfold heads. now rewrite G. }
  assert (NS : ~ special n).
  { intros S. apply special_iff in S. unfold is_special in S. rewrite N1, N2, N3 in S. discriminate. }
  apply add_layer_step in E as [[A [B [C [h [D E]]]]]|[E A]].
  - rewrite E in H. eapply la_new; eauto.
  - rewrite E in H. now apply la_old.
Qed.
Lemma declares_name hs s h : declares hs s h -> exists r, parts 58 s (h_name h :: r).
Proof. intros D. inversion D; subst; cbn [h_name]; eauto. Qed.
Lemma no_position hs n : (forall i, ~ position hs n i) -> ~ In n (map h_name hs).
Proof.
  induction hs as [|h hs IH]; intros H I; [destruct I|]. destruct (list_eq_dec N.eq_dec (h_name h) n) as [E|E].
  - apply (H O). now constructor.
  - destruct I as [I|I]; [now destruct E|]. revert I. apply IH. intros i P. apply (H (S i)). now apply first_later.
Qed.
Lemma nodup_snoc {A} (l : list A) a : NoDup l -> ~ In a l -> NoDup (l ++ [a]).
Proof.
  induction l as [|x l IH]; intros D N; cbn [app]; [repeat constructor; auto|]. inversion D; subst. constructor.
  - intros I. apply in_app_or in I as [I|[I|[]]]; auto. subst. apply N. now left.
  - apply IH; auto. intros I. apply N. now right.
Qed.
Lemma layers_after_unique hs secs hs' : layers_after hs secs hs' -> NoDup (map h_name hs) -> NoDup (map h_name hs').
Proof.
  induction 1 as [| |hs n es secs hs' h A B [n0 [r [P N]]] C D L IH|]; auto. intros U. apply IH. rewrite map_app. cbn [map].
  apply nodup_snoc; auto. apply no_position. apply declares_name in D as [r' D]. apply tokens_parts in P, D. rewrite P in D. injection D as -> _. exact N.
Qed.
Lemma layer_unique c i l : NoDup (map h_name (heads c)) -> nth_error (c_layers c) i = Some l -> layer_of c (ly_name l) i.
Proof.
  intros U H. exists l. split; auto. split; auto. intros j l' Hj Hl E. unfold heads in U. rewrite map_map in U.
  assert (X : i = j); [|lia]. apply (proj1 (NoDup_nth_error _) U).
  - rewrite map_length. apply nth_error_Some. congruence.
  - rewrite !nth_error_map, H, Hl. cbn. now rewrite E.
Qed.
Lemma start_heads : heads start = default_heads.
Proof. vm_compute. reflexivity. Qed.

(* ---- the second pass --------------------------------------------------------------------------- *)
Lemma kinds_heads c : kinds c = map (fun h => (h_name h, h_type h)) (heads c).
Proof. unfold kinds, heads. now rewrite map_map. Qed.
Lemma set_entry_head al l k d l' : set_layer_entry al l k d = Some l' -> head_of l' = head_of l.
Proof.
  unfold set_layer_entry. destruct (has_char _ _).
  - destruct (chord_codes _ _); [|discriminate]. destruct (lookup_chord_from _ _ _); [intros H; injection H as <-; reflexivity|].
    destruct (Nat.ltb _ _); [intros H; injection H as <-; reflexivity|discriminate].
  - cbv zeta. destruct (existsb _ _); [intros H; injection H as <-; reflexivity|]. destruct (_ =? 0); [discriminate|]. intros H; injection H as <-; reflexivity.
Qed.
Lemma set_entry_none al l k d : set_layer_entry al l k d = None -> forall d', set_layer_entry al l k d' = None.
Proof.
  unfold set_layer_entry. intros H d'. destruct (has_char _ _).
  - destruct (chord_codes _ _); [|reflexivity]. destruct (lookup_chord_from _ _ _); [discriminate|]. destruct (Nat.ltb _ _); [discriminate|reflexivity].
  - cbv zeta in *. destruct (existsb _ _); [discriminate|]. destruct (_ =? 0); [reflexivity|discriminate].
Qed.
Lemma map_upd {A B} (f : A -> B) (ls : list A) i x y : nth_error ls i = Some y -> f x = f y -> map f (upd i x ls) = map f ls.
Proof.
  revert i. induction ls as [|a ls IH]; intros [|i] H E; cbn [nth_error] in H; try discriminate; cbn [upd map].
  - injection H as ->. now rewrite E.
  - f_equal. now apply IH.
Qed.
Definition later (c c' : config) : Prop := heads c' = heads c /\ c_aliases c' = c_aliases c /\ tables_extended c c'.
Lemma ext_refl {A} (l : list A) : exists x, l = l ++ x.
Proof. exists []. now rewrite app_nil_r. Qed.
Lemma later_refl c : later c c.
Proof. split; auto. split; auto. split; [|split]; apply ext_refl. Qed.
Lemma ext_trans {A} (a b c : list A) : (exists x, b = a ++ x) -> (exists x, c = b ++ x) -> exists x, c = a ++ x.
Proof. intros [x ->] [y ->]. exists (x ++ y). now rewrite app_assoc. Qed.
Lemma later_trans a b c : later a b -> later b c -> later a c.
Proof.
  intros [A [B [C1 [C2 C3]]]] [D [E [F1 [F2 F3]]]]. split; [congruence|]. split; [congruence|]. split; [|split]; eapply ext_trans; eauto.
Qed.
Lemma later_wider c c' : later c c' -> wider c c'.
Proof. intros [A [_ B]]. split; auto. rewrite !kinds_heads. now rewrite A. Qed.
Lemma full_later c c' : tables_extended c c' -> table_full c -> table_full c'.
Proof.
  intros [[x A] [[y B] [z C]]]. unfold table_full. rewrite A, B, C, !app_length. lia.
Qed.
Lemma add_fail c e c' : config_add_entry c e = Ok (c', false) -> c_layers c' = c_layers c.
Proof.
  intros E. rewrite add_entry_unfold in E. destruct (N.leb _ _); [apply Ok_inj in E; injection E as <-; reflexivity|].
  destruct (split_entry e) as [l s]. destruct (parse_kvp s) as [key val]. destruct (config_get_layer_index _ _); [|apply Ok_inj in E; injection E as <-; reflexivity].
  bstep E r Er. destruct r as [c1 o].
  assert (G1 : grows c c1) by (destruct val; [eapply parse_desc_grows; exact Er|apply Ok_inj in Er; injection Er as <- _; apply grows_refl]).
  apply grows_layers in G1 as [G1 _].
  destruct o; [|apply Ok_inj in E; injection E as <-; exact G1].
  destruct (set_layer_entry _ _ _ _); [discriminate|]. apply Ok_inj in E. injection E as <-. exact G1.
Qed.
Lemma add_later c e c' ok : config_add_entry c e = Ok (c', ok) -> later c c'.
Proof.
  intros E. pose proof (add_rest _ _ _ _ E) as [R T]. apply rest_opts in R as [_ R]. split; [|split; auto]. destruct ok.
  - destruct (target_total e) as [ln [s Tg]]. destruct (entry_total s) as [[k v] En]. destruct (bind_ok _ _ _ _ _ _ _ E Tg En) as [i [l [d [l' [_ [El [_ [_ [_ [EL Es]]]]]]]]]].
    unfold heads. rewrite EL. eapply map_upd; eauto. eapply set_entry_head; eauto.
  - apply add_fail in E. unfold heads. now rewrite E.
Qed.
(* what a binding of layer ln does *)
Inductive effect (cf : config) (ln : str) (c : config) (k v : str) (c1 : config) : Prop :=
| eff_set i l d l' : layer_of c ln i -> nth_error (c_layers c) i = Some l -> means cf v d -> set_layer_entry (c_aliases cf) l k d = Some l' ->
    c_layers c1 = upd i l' (c_layers c) -> effect cf ln c k v c1
| eff_no_layer : (forall i, ~ layer_of c ln i) -> c_layers c1 = c_layers c -> effect cf ln c k v c1
| eff_no_meaning : ~ meaningful cf v -> c_layers c1 = c_layers c -> effect cf ln c k v c1
| eff_no_key i l d : layer_of c ln i -> nth_error (c_layers c) i = Some l -> means cf v d -> (forall d, set_layer_entry (c_aliases cf) l k d = None) ->
    c_layers c1 = c_layers c -> effect cf ln c k v c1.
Lemma rewritten k v l : entry l (k, Some v) -> k <> [] -> entry (k ++ bs " = " ++ v) (k, Some v).
Proof.
  intros H N. remember (k, Some v) as e eqn:E. destruct H as [k0 b1 b2 v0 A B C D D2 F|k0 A]; [|discriminate]. injection E as -> ->.
  apply (entry_value k [32] [32] v); auto; try (intros X; now destruct N); try (constructor; [now left|constructor]).
Qed.
Lemma bind_step cf ln c k v c1 ok : config_add_entry c (ln ++ bs "." ++ k ++ bs " = " ++ v) = Ok (c1, ok) ->
  ln <> [] -> ~ In 46 ln -> ~ In 40 ln -> (length ln + length k + length v <= 507)%nat -> utf8_text v -> entry (k ++ bs " = " ++ v) (k, Some v) ->
  later c1 cf -> ~ table_full cf -> effect cf ln c k v c1.
Proof.
  intros H N1 N2 N3 L U En LT NF. set (exp := ln ++ bs "." ++ k ++ bs " = " ++ v) in *.
  assert (T : target exp ln (k ++ bs " = " ++ v)) by (apply (target_layer ln); auto).
  pose proof (add_later _ _ _ _ H) as LC. assert (AL : c_aliases cf = c_aliases c) by (destruct LT as [_ [-> _]], LC as [_ [-> _]]; reflexivity).
  assert (LE : (N.of_nat (length exp) < 512)%N).
  { unfold exp. rewrite !app_length. change (length (bs ".")) with 1%nat. change (length (bs " = ")) with 3%nat. lia. }
  destruct ok.
  - destruct (bind_ok _ _ _ _ _ _ _ H T En) as [i [l [d [l' [HL [El [[c2 [Hp [D1 [D2 D3]]]] [TE [_ [EL Es]]]]]]]]]].
    apply (eff_set _ _ _ _ _ _ i l d l'); auto; [|now rewrite AL].
    unfold parse_descriptor in Hp. pose proof (desc_sound _ _ _ _ _ U Hp) as M. eapply means_wider; [|exact M].
    apply parse_desc_grows in Hp. apply grows_wider in Hp as [Hp _]. apply later_wider in LT as [LK [LT1 [LT2 LT3]]]. apply later_wider in LC as [LK2 _]. split.
    + rewrite Hp, LK. exact LK2.
    + rewrite D1 in LT1. rewrite D2 in LT2. rewrite D3 in LT3. split; [|split]; auto.
  - pose proof (add_fail _ _ _ H) as EL. rewrite add_entry_unfold in H. destruct (N.leb_spec 512 (N.of_nat (length exp))); [lia|].
    rewrite (target_split _ _ _ T), (entry_ok _ _ En) in H. destruct (config_get_layer_index c ln) as [i|] eqn:Ei.
    2:{ apply eff_no_layer; auto. intros i Hi. apply layer_of_iff in Hi. congruence. }
    bstep H r Er. destruct r as [c2 o]. unfold parse_descriptor in Er. pose proof (parse_desc_grows _ _ _ _ _ Er) as G.
    pose proof (grows_layers _ _ G) as [GL [GA _]]. apply layer_of_iff in Ei. destruct o as [d|].
    + destruct (set_layer_entry _ _ _ _) eqn:Es; [discriminate|]. apply Ok_inj in H. injection H as <-. destruct Ei as [l [E1 [E2 E3]]].
      rewrite GL in Es. rewrite (nth_error_nth _ _ zero_layer E1) in Es. apply (eff_no_key _ _ _ _ _ _ i l d); auto; [now exists l|..].
      * pose proof (desc_sound _ _ _ _ _ U Er) as M. eapply means_wider; [|exact M]. now apply later_wider.
      * rewrite AL, <- GA. now apply set_entry_none with (d := d).
    + apply Ok_inj in H. injection H as <-. apply eff_no_meaning; auto. intros [d M]. apply NF.
      assert (K : kinds cf = kinds c). { apply later_wider in LT as [LT _]. apply later_wider in LC as [LC _]. congruence. }
      destruct (desc_complete_kinds _ c cf v d U K M ltac:(rewrite Er; discriminate)) as [c3 [o [E3 F]]]. rewrite Er in E3. apply Ok_inj in E3.
      injection E3 as <- <-. destruct LT as [_ [_ LT]]. apply (full_later _ _ LT). now apply F.
Qed.

(* ---- all bindings of a layer --------------------------------------------------------------------- *)
Lemma upto_parts d n s : ~ In d n -> upto d (n ++ d :: s) = n.
Proof.
  induction n as [|x n IH]; intros H; cbn [app upto]; [now rewrite N.eqb_refl|].
  destruct (N.eqb_spec x d) as [->|]; [destruct H; now left|]. f_equal. apply IH. intros I. apply H. now right.
Qed.
Lemma upto_all d n : ~ In d n -> upto d n = n.
Proof.
  induction n as [|x n IH]; intros H; cbn [upto]; auto. destruct (N.eqb_spec x d) as [->|]; [destruct H; now left|]. f_equal. apply IH. intros I. apply H. now right.
Qed.
Lemma leading_parts d n s : n <> [] -> ~ In d n -> after_leading d (n ++ s) = n ++ s.
Proof. destruct n as [|x n]; [congruence|]. intros _ H. cbn [app after_leading]. destruct (N.eqb_spec x d) as [->|]; [destruct H; now left|reflexivity]. Qed.
Lemma layer_part_parts n m r : parts 58 n (m :: r) -> layer_part n = m /\ m <> [].
Proof.
  unfold layer_part. remember (m :: r) as l eqn:E. intros H. revert E. induction H as [|s ns H IH|x H1 H2|x s ns H1 H2 H IH]; intros E.
  - discriminate.
  - cbn [after_leading]. rewrite N.eqb_refl. auto.
  - injection E as -> _. pose proof (leading_parts 58 m [] H1 H2) as X. rewrite app_nil_r in X. rewrite X. split; auto. now apply upto_all.
  - injection E as -> _. rewrite leading_parts by auto. split; auto. now apply upto_parts.
Qed.
Definition shaped (s : str * list (str * option str)) : Prop := Forall (fun e => fst e <> [] /\ exists l, entry l e) (snd s).
Lemma file_shaped ts secs : file ts secs -> Forall (fun t => tight t /\ t <> []) ts -> Forall shaped secs.
Proof.
  induction 1 as [|n es ts secs r F Hf IH]; intros H; [constructor|]. apply Forall_inv_tail in H. apply Forall_app in H as [H1 H2].
  constructor; [|auto]. unfold shaped. cbn [snd]. clear - F H1. induction F as [|l [k v] ls es [E _] F IH]; [constructor|].
  apply Forall_cons_iff in H1 as [[A B] H1]. constructor; auto. cbn [fst]. split; [eapply entry_key; eauto|eauto].
Qed.
Lemma sections_shaped text secs : sections_of text secs -> Forall shaped secs.
Proof. intros [ls [ts [_ [M F]]]]. eapply file_shaped; eauto. now apply meaning_lines in M. Qed.
Definition tidy (s : str * list (str * option str)) : Prop :=
  ~ special (fst s) -> ~ In 46 (layer_part (fst s)) /\ ~ In 40 (layer_part (fst s)) /\ Forall (orderly_binding (fst s)) (snd s).
Section Collect.
Context {X : Type} (cf : config) (ln : str) (g : config -> X) (Phi : X -> list (str * str) -> X -> Prop).
Hypothesis full : ~ table_full cf.
Hypothesis Phi_nil : forall x, Phi x [] x.
Hypothesis Phi_app : forall x a y b z, Phi x a y -> Phi y b z -> Phi x (a ++ b) z.
Hypothesis Phi_step : forall c lnx k v c1, k <> [] -> heads c = heads cf -> effect cf lnx c k v c1 ->
  Phi (g c) (if str_eqb lnx ln then [(k, v)] else []) (g c1).
Lemma pass2_later lno c e c' : pass2_entry lno c e = Ok c' -> later c c'.
Proof.
  unfold pass2_entry. destruct (snd e); [|intros H; apply Ok_inj in H; subst; apply later_refl].
  destruct lno; [|discriminate]. intros H. bstep H r E. destruct r as [c2 ok]. apply Ok_inj in H. subst c2. now apply add_later in E.
Qed.
Lemma fold_later {A} (f : config -> A -> res config) : (forall c a c', f c a = Ok c' -> later c c') -> forall l c c', foldr_res f l c = Ok c' -> later c c'.
Proof.
  intros Hf. induction l as [|a l IH]; intros c c' H; cbn [foldr_res] in H; [apply Ok_inj in H; subst; apply later_refl|]. bstep H c1 E.
  eapply later_trans; eauto.
Qed.
Lemma pass2_section_later c s c' : pass2_section c s = Ok c' -> later c c'.
Proof.
  unfold pass2_section. destruct (_ || _); [intros H; apply Ok_inj in H; subst; apply later_refl|]. apply fold_later. apply pass2_later.
Qed.
Lemma collect_entries n : ~ special n -> ~ In 46 (layer_part n) -> ~ In 40 (layer_part n) -> forall es, shaped (n, es) -> Forall (orderly_binding n) es ->
  forall c c', foldr_res (pass2_entry (hd_error (tokens 58 n))) es c = Ok c' -> later c' cf ->
  Phi (g c) (if str_eqb (layer_part n) ln then valued es else []) (g c').
Proof.
  intros NS N1 N2. induction es as [|[k v] es IH]; intros Sh O c c' H L; cbn [foldr_res] in H.
  - apply Ok_inj in H. subst. destruct (str_eqb _ _); apply Phi_nil.
  - bstep H c1 E. apply Forall_cons_iff in Sh as [[S1 S2] Sh]. cbn [fst] in S1. apply Forall_cons_iff in O as [O1 O].
    assert (L1 : later c1 cf). { eapply later_trans; [|exact L]. revert H. apply fold_later. intros a b d. apply pass2_later. }
    specialize (IH Sh O c1 c' H L). replace (if str_eqb (layer_part n) ln then valued ((k, v) :: es) else [])
      with ((if str_eqb (layer_part n) ln then value_of (k, v) else []) ++ (if str_eqb (layer_part n) ln then valued es else [])) by (destruct (str_eqb _ _); reflexivity).
    apply Phi_app with (y := g c1); auto. pose proof (pass2_later _ _ _ _ E) as LC. unfold pass2_entry in E. cbn [snd fst] in E. destruct v as [v|].
    2:{ apply Ok_inj in E. subst c1. unfold value_of. cbn [snd]. destruct (str_eqb _ _); apply Phi_nil. }
    destruct (tokens 58 n) as [|m r] eqn:T; cbn [hd_error] in E; [discriminate|]. apply tokens_parts in T. apply layer_part_parts in T as [<- T].
    cbn [orderly_binding] in O1. destruct O1 as [U O1]. cbv zeta in E. bstep E r0 Ea. destruct r0 as [c2 ok]. apply Ok_inj in E. subst c2.
    rewrite firstn_all2 in Ea.
    2:{ rewrite !app_length. change (length (bs ".")) with 1%nat. change (length (bs " = ")) with 3%nat. lia. }
    destruct S2 as [l S2]. change (value_of (k, Some v)) with [(k, v)]. apply Phi_step; auto.
    + destruct L1 as [L1 _]. destruct LC as [LC _]. congruence.
    + eapply bind_step; eauto. eapply rewritten; eauto.
Qed.
Lemma collect : forall secs, Forall shaped secs -> Forall tidy secs -> forall c c', foldr_res pass2_section (map sec_of secs) c = Ok c' -> later c' cf ->
  Phi (g c) (bindings ln secs) (g c').
Proof.
  induction secs as [|[n es] secs IH]; intros Sh T c c' H L; cbn [map foldr_res] in H; [apply Ok_inj in H; subst; apply Phi_nil|].
  bstep H c1 E. apply Forall_cons_iff in Sh as [S1 Sh]. apply Forall_cons_iff in T as [T1 T].
  assert (L1 : later c1 cf). { eapply later_trans; [|exact L]. revert H. apply fold_later. intros a b d. apply pass2_section_later. }
  unfold bindings. cbn [flat_map]. apply Phi_app with (y := g c1); [|now apply IH]. cbn [fst snd].
  unfold pass2_section in E. cbn [sec_of sec_name sec_entries fst snd] in E. fold (is_special n) in E. destruct (is_special n) eqn:Sp.
  - apply Ok_inj in E. subst. apply Phi_nil.
  - assert (NS : ~ special n) by (intros X0; apply special_iff in X0; congruence). destruct (T1 NS) as [A [B C]]. cbn [fst snd] in *. cbn [negb andb].
    now apply collect_entries.
Qed.
End Collect.

(* keys *)
Lemma hits c key : forall x, ((x <? 256) && str_eqb (c_aliases c x) key = true) <-> aliased c key x.
Proof.
  intros x. unfold aliased. rewrite andb_true_iff, N.ltb_lt, NotationProofs.str_eqb_eq. reflexivity.
Qed.
Lemma set_key cf l key d : key <> [] -> ~ In 43 key ->
  match set_layer_entry (c_aliases cf) l key d with
  | Some l' => ly_chords l' = ly_chords l /\ (forall code, stands_for cf key code -> ly_keymap l' code = d)
      /\ (forall code, ~ stands_for cf key code -> ly_keymap l' code = ly_keymap l code)
  | None => forall code, ~ stands_for cf key code
  end.
Proof.
  intros Hk NP. unfold set_layer_entry. destruct (has_char 43 key) eqn:P; [apply has_plus in P; now destruct NP|]. cbv zeta.
  pose proof (hits cf key) as Hh. destruct (existsb _ _) eqn:X.
  - apply existsb_exists in X as [n [_ X]]. apply Hh in X. split; [reflexivity|]. cbn [ly_keymap set_ly_keymap]. split; intros code S.
    + assert (A : aliased cf key code) by (destruct S as [S|[S _]]; [exact S|now destruct (S _ X)]). apply Hh in A. now rewrite A.
    + destruct (_ && _) eqn:Y; [|reflexivity]. apply Hh in Y. destruct S. now left.
  - assert (NA : forall x, ~ aliased cf key x).
    { intros x A. apply (eq_true_false_abs _) with (2 := X). apply existsb_exists. exists (N.to_nat x). rewrite Nnat.N2Nat.id. split; [|now apply Hh].
      destruct A as [A _]. apply in_seq. lia. }
    destruct (N.eqb_spec (lookup_keycode key) 0) as [L|L].
    + intros code [S|[_ S]]; [now apply NA in S|]. apply table_lookup in S as [S S']; auto. congruence.
    + split; [reflexivity|]. cbn [ly_keymap set_ly_keymap]. unfold fupd. split; intros code S.
      * destruct S as [S|[_ S]]; [now apply NA in S|]. apply table_lookup in S as [<- _]; auto. now rewrite N.eqb_refl.
      * destruct (N.eqb_spec code (lookup_keycode key)) as [->|]; [|reflexivity]. destruct S. right. split; auto. now apply table_lookup.
Qed.
Lemma chord_codes_iff ns : Forall (fun n => n <> []) ns -> forall acc,
  match chord_codes ns acc with
  | Some cs => exists codes, cs = acc ++ codes /\ Forall2 table_name ns codes /\ ((length acc <= 8)%nat -> (length (acc ++ codes) <= 8)%nat)
  | None => forall codes, Forall2 table_name ns codes -> (8 < length (acc ++ codes))%nat
  end.
Proof.
  induction ns as [|n ns IH]; intros H acc; cbn [chord_codes].
  - exists []. rewrite app_nil_r. auto.
  - apply Forall_cons_iff in H as [Hn H]. destruct (N.eqb_spec (lookup_keycode n) 0) as [L|L].
    { intros codes F. inversion F; subst. match goal with X : table_name n _ |- _ => apply table_lookup in X as [X X']; auto; congruence end. }
    assert (Tn : table_name n (lookup_keycode n)) by now apply lookup_sound.
    destruct (Nat.leb_spec 8 (length acc)) as [G|G].
    { intros codes F. inversion F; subst. rewrite app_length. cbn [length]. lia. }
    specialize (IH H (acc ++ [lookup_keycode n])). destruct (chord_codes ns _) as [cs|].
    + destruct IH as [codes [-> [F Lc]]]. exists (lookup_keycode n :: codes). rewrite <- app_assoc in *. split; auto. split; [now constructor|]. intros _. apply Lc.
      rewrite app_length. cbn [length]. lia.
    + intros codes F. inversion F as [|? code ? codes' T F']; subst. apply table_lookup in T as [<- _]; auto. specialize (IH _ F'). rewrite <- app_assoc in IH. exact IH.
Qed.
Lemma pluses_nonempty s ns : pluses s ns -> Forall (fun n => n <> []) ns.
Proof. induction 1; auto. Qed.
Lemma pluses_unique s ns ns' : pluses s ns -> pluses s ns' -> ns = ns'.
Proof. intros A B. apply pluses_tokens in A, B. congruence. Qed.
Lemma set_chord al l key d : In 43 key ->
  match set_layer_entry al l key d with
  | Some l' => ly_keymap l' = ly_keymap l /\ exists ns codes, pluses key ns /\ Forall2 table_name ns codes /\ (length codes <= 8)%nat
      /\ chord_change codes d (ly_chords l) (ly_chords l') /\ ((length (ly_chords l) <= 64)%nat -> (length (ly_chords l') <= 64)%nat)
  | None => (forall ns codes, pluses key ns -> Forall2 table_name ns codes -> (length codes <= 8)%nat -> False)
      \/ exists ns codes, pluses key ns /\ Forall2 table_name ns codes /\ (length codes <= 8)%nat
           /\ Forall (fun x => ~ incl codes (ch_keys x)) (ly_chords l) /\ (64 <= length (ly_chords l))%nat
  end.
Proof.
  intros P. unfold set_layer_entry. rewrite (proj2 (has_plus key) P). destruct (pluses_total key) as [ns Hp]. rewrite (pluses_tokens _ _ Hp).
  pose proof (chord_codes_iff ns (pluses_nonempty _ _ Hp) []) as C. destruct (chord_codes ns []) as [cs|].
  - destruct C as [codes [-> [F Lc]]]. cbn [app] in *. specialize (Lc ltac:(cbn; lia)).
    pose proof (lookup_chord_ok codes (ly_chords l) 0) as X. destruct (lookup_chord_from _ _ _) as [j|].
    + destruct X as [a [x [b [X1 [-> [X2 X3]]]]]]. split; [reflexivity|]. exists ns, codes. split; auto. split; auto. split; auto.
      cbn [ly_chords set_ly_chords Nat.add]. rewrite X1. rewrite app_nth2, Nat.sub_diag by lia. cbn [nth]. rewrite upd_middle. split; [now apply change_action|].
      rewrite !app_length. cbn [length]. lia.
    + destruct (Nat.ltb_spec (length (ly_chords l)) 64) as [G|G].
      * split; [reflexivity|]. exists ns, codes. split; auto. split; auto. split; auto. cbn [ly_chords set_ly_chords]. split; [now apply change_new|].
        rewrite app_length. cbn [length]. lia.
      * right. exists ns, codes. auto.
  - left. intros ns' codes Hp' F Lc. rewrite (pluses_unique _ _ _ Hp' Hp) in F. specialize (C _ F). cbn [app] in C. lia.
Qed.
Definition keys_phi (cf : config) (code : N) (x : option desc) (b : list (str * str)) (y : option desc) : Prop :=
  forall o, last_with (binds cf code) b o -> match o with None => y = x | Some e => exists d, y = Some d /\ means cf (snd e) d end.
Lemma keys_step cf ln i code c lnx k v c1 : layer_of cf ln i -> k <> [] -> heads c = heads cf -> effect cf lnx c k v c1 ->
  keys_phi cf code (keys_of c i code) (if str_eqb lnx ln then [(k, v)] else []) (keys_of c1 i code).
Proof.
  intros HL Hk HH Ef o HO.
  assert (HLc : layer_of c ln i) by (apply (layer_of_kinds cf); auto; rewrite !kinds_heads; congruence).
  assert (same : c_layers c1 = c_layers c -> o = None -> match o with None => keys_of c1 i code = keys_of c i code | Some e => exists d, keys_of c1 i code = Some d /\ means cf (snd e) d end).
  { intros E ->. unfold keys_of. now rewrite E. }
  destruct (str_eqb lnx ln) eqn:EL.
  - apply NotationProofs.str_eqb_eq in EL. subst lnx.
    destruct Ef as [i0 l d l' H1 H2 H3 H4 H5|H1 H2|H1 H2|i0 l d H1 H2 H3 H4 H5].
    + rewrite (layer_of_unique _ _ _ _ H1 HLc) in *. clear H1 i0.
      assert (E1 : keys_of c1 i code = Some (ly_keymap l' code)) by (unfold keys_of; rewrite H5, (nth_error_upd_same _ _ _ _ H2); reflexivity).
      assert (E0 : keys_of c i code = Some (ly_keymap l code)) by (unfold keys_of; rewrite H2; reflexivity). rewrite E1, E0.
      destruct (in_dec N.eq_dec 43 k) as [I|I].
      * pose proof (set_chord (c_aliases cf) l k d I) as S. rewrite H4 in S. destruct S as [S _]. rewrite S.
        apply last_one in HO as [[-> [B _]]|[-> _]]; [now destruct B|reflexivity].
      * pose proof (set_key cf l k d Hk I) as S. rewrite H4 in S. destruct S as [_ [S1 S2]]. apply last_one in HO as [[-> [_ [B _]]]|[-> B]].
        -- cbn [fst snd] in *. exists (ly_keymap l' code). split; auto. now rewrite (S1 _ B).
        -- rewrite S2; auto. intros S. apply B. split; auto. split; auto. now exists d.
    + now destruct (H1 i).
    + apply same; auto. apply last_one in HO as [[_ [_ [_ B]]]|[O _]]; auto. now destruct H1.
    + apply same; auto. apply last_one in HO as [[_ [B1 [B2 B]]]|[O _]]; auto. cbn [fst snd] in *. pose proof (set_key cf l k d Hk B1) as S.
      rewrite H4 in S. now destruct (S _ B2).
  - apply last_nil in HO. subst o. destruct Ef as [i0 l d l' H1 H2 H3 H4 H5|H1 H2|H1 H2|i0 l d H1 H2 H3 H4 H5]; auto.
    unfold keys_of. rewrite H5. rewrite nth_error_upd_other; auto. intros ->. destruct H1 as [l1 [A1 [A2 _]]], HLc as [l2 [B1 [B2 _]]].
    assert (X : lnx = ln) by congruence. rewrite X in EL. rewrite (proj2 (NotationProofs.str_eqb_eq _ _) eq_refl) in EL. discriminate.
Qed.
Lemma keys_nil cf code x : keys_phi cf code x [] x.
Proof. intros o H. apply last_nil in H. now subst. Qed.
Lemma keys_app cf code x a y b z : keys_phi cf code x a y -> keys_phi cf code y b z -> keys_phi cf code x (a ++ b) z.
Proof.
  intros A B o HO. destruct (last_app _ _ _ _ HO) as [[e [-> H]]|[H1 H2]]; [exact (B _ H)|]. specialize (A _ H1). specialize (B _ H2). cbn in B. subst z. exact A.
Qed.
(* chords *)
Definition chords_phi (cf : config) (x : option (list chord)) (b : list (str * str)) (y : option (list chord)) : Prop :=
  forall chs, x = Some chs -> (length chs <= 64)%nat -> exists chs', y = Some chs' /\ (length chs' <= 64)%nat /\ chords_after cf chs b chs'.
Lemma chords_app_after cf chs a chs1 b chs' : chords_after cf chs a chs1 -> chords_after cf chs1 b chs' -> chords_after cf chs (a ++ b) chs'.
Proof.
  induction 1; intros G; cbn [app]; auto; [eapply SpecConfig.ca_change; eauto|eapply SpecConfig.ca_full; eauto|eapply SpecConfig.ca_other; eauto].
Qed.
Lemma chords_nil cf x : chords_phi cf x [] x.
Proof. intros chs -> L. exists chs. split; auto. split; auto. constructor. Qed.
Lemma chords_app cf x a y b z : chords_phi cf x a y -> chords_phi cf y b z -> chords_phi cf x (a ++ b) z.
Proof.
  intros A B chs -> L. destruct (A _ eq_refl L) as [c1 [-> [L1 A1]]]. destruct (B _ eq_refl L1) as [c2 [-> [L2 A2]]].
  exists c2. split; auto. split; auto. eapply chords_app_after; eauto.
Qed.
Lemma chords_step cf ln i c lnx k v c1 : layer_of cf ln i -> k <> [] -> heads c = heads cf -> effect cf lnx c k v c1 ->
  chords_phi cf (chords_of c i) (if str_eqb lnx ln then [(k, v)] else []) (chords_of c1 i).
Proof.
  intros HL Hk HH Ef chs HC LC.
  assert (HLc : layer_of c ln i) by (apply (layer_of_kinds cf); auto; rewrite !kinds_heads; congruence).
  assert (Hsame : chords_of c1 i = chords_of c i -> forall b, (forall codes, ~ chord_binding cf b codes) -> exists chs', chords_of c1 i = Some chs' /\ (length chs' <= 64)%nat /\ chords_after cf chs [b] chs').
  { intros E b N. exists chs. rewrite E. split; auto. split; auto. apply SpecConfig.ca_other; auto. constructor. }
  assert (Hl : c_layers c1 = c_layers c -> chords_of c1 i = chords_of c i) by (intros E; unfold chords_of; now rewrite E).
  destruct (str_eqb lnx ln) eqn:EL.
  - apply NotationProofs.str_eqb_eq in EL. subst lnx.
    destruct Ef as [i0 l d l' H1 H2 H3 H4 H5|H1 H2|H1 H2|i0 l d H1 H2 H3 H4 H5].
    + rewrite (layer_of_unique _ _ _ _ H1 HLc) in *. clear H1 i0.
      assert (E1 : chords_of c1 i = Some (ly_chords l')) by (unfold chords_of; rewrite H5, (nth_error_upd_same _ _ _ _ H2); reflexivity).
      assert (E0 : chords_of c i = Some (ly_chords l)) by (unfold chords_of; rewrite H2; reflexivity).
      destruct (in_dec N.eq_dec 43 k) as [I|I].
      * pose proof (set_chord (c_aliases cf) l k d I) as S. rewrite H4 in S. destruct S as [_ [ns [codes [S1 [S2 [S3 [S4 S5]]]]]]].
        rewrite E0 in HC. injection HC as <-. exists (ly_chords l'). split; auto. split; auto.
        apply (SpecConfig.ca_change _ _ _ _ codes d (ly_chords l')); auto; [|constructor]. split; auto. split; [eauto|]. split; auto. now exists d.
      * pose proof (set_key cf l k d Hk I) as S. rewrite H4 in S. destruct S as [S _]. apply Hsame; [congruence|]. intros codes [B _]. now destruct I.
    + now destruct (H1 i).
    + apply Hsame; auto. intros codes [_ [_ [_ B]]]. now destruct H1.
    + rewrite (layer_of_unique _ _ _ _ H1 HLc) in *. clear H1 i0.
      destruct (in_dec N.eq_dec 43 k) as [I|I]; [|apply Hsame; auto; intros codes [B _]; now destruct I].
      pose proof (set_chord (c_aliases cf) l k d I) as S. rewrite H4 in S.
      assert (E0 : chords_of c i = Some (ly_chords l)) by (unfold chords_of; rewrite H2; reflexivity).
      destruct S as [S|[ns [codes [S1 [S2 [S3 [S4 S5]]]]]]].
      * apply Hsame; auto. intros codes [_ [[ns [B1 B2]] [B3 _]]]. eapply S; eauto.
      * rewrite Hl, E0 by auto. rewrite E0 in HC. injection HC as <-. exists (ly_chords l). split; auto. split; auto.
        apply (SpecConfig.ca_full _ _ _ _ codes); auto; [|constructor]. split; auto. split; [eauto|]. split; auto. now exists d.
  - enough (E : chords_of c1 i = chords_of c i) by (exists chs; rewrite E; split; auto; split; auto; constructor).
    destruct Ef as [i0 l d l' H1 H2 H3 H4 H5|H1 H2|H1 H2|i0 l d H1 H2 H3 H4 H5]; auto.
    unfold chords_of. rewrite H5. rewrite nth_error_upd_other; auto. intros ->. destruct H1 as [l1 [A1 [A2 _]]], HLc as [l2 [B1 [B2 _]]].
    assert (X : lnx = ln) by congruence. rewrite X in EL. rewrite (proj2 (NotationProofs.str_eqb_eq _ _) eq_refl) in EL. discriminate.
Qed.
Lemma table_dec n : n <> [] -> {a | table_name n a} + {forall a, ~ table_name n a}.
Proof.
  intros H. destruct (N.eq_dec (lookup_keycode n) 0) as [L|L].
  - right. intros a T. apply table_lookup in T as [<- T]; auto.
  - left. exists (lookup_keycode n). now apply lookup_sound.
Qed.
Lemma last_exists {A} (P : A -> Prop) (l : list A) : Forall (fun a => P a \/ ~ P a) l -> exists o, last_with P l o.
Proof.
  induction l as [|a l IH]; intros H; [exists None; intros a []|]. apply Forall_cons_iff in H as [Ha H]. destruct (IH H) as [[b|] Hb].
  - exists (Some b). destruct Hb as [p [q [-> Hb]]]. exists (a :: p), q. split; auto.
  - destruct Ha as [Ha|Ha]; [exists (Some a), [], l; auto|]. exists None. intros x [<-|I]; auto.
Qed.
Definition start_main_ok (code : N) : bool :=
  match find (fun p => fst p =? code) modifier_keys with
  | Some p => match main_key code start with DLayer i => Nat.eqb i (snd p) | _ => false end
  | None => match main_key code start with DNone => true | _ => false end
  end.
Lemma start_main_all : forallb start_main_ok (map N.of_nat (seq 0 256)) = true.
Proof. vm_compute. reflexivity. Qed.
Lemma start_main code : code < 256 -> (exists i, In (code, i) modifier_keys /\ main_key code start = DLayer i)
  \/ (forall i, ~ In (code, i) modifier_keys) /\ main_key code start = DNone.
Proof.
  intros H. assert (X : start_main_ok code = true).
  { pose proof start_main_all as A. rewrite forallb_forall in A. apply A. apply in_map_iff. exists (N.to_nat code). split; [lia|]. apply in_seq. lia. }
  unfold start_main_ok in X. destruct (find _ modifier_keys) as [[c i]|] eqn:F.
  - apply find_some in F as [F1 F2]. cbn [fst snd] in *. apply N.eqb_eq in F2. subst c. left. exists i. split; auto.
    destruct (main_key code start); try discriminate. apply Nat.eqb_eq in X. now subst.
  - right. split; [|destruct (main_key code start); auto; discriminate]. intros i I. apply (find_none _ _ F) in I. cbn [fst] in I. rewrite N.eqb_refl in I. discriminate.
Qed.
Definition freshb (c : config) : bool := forallb (fun l => match ly_chords l with [] => true | _ => false end) (c_layers c)
  && forallb (fun l => forallb (fun n => match ly_keymap l (N.of_nat n) with DNone => true | _ => false end) (seq 0 256)) (tl (c_layers c))
  && match c_layers c with [] => false | _ => true end.
Lemma freshb_ok c : freshb c = true -> fresh_layers c.
Proof.
  unfold freshb. intros A.
  apply andb_true_iff in A as [A C]. apply andb_true_iff in A as [A B]. rewrite forallb_forall in A, B. split; [|split].
  - unfold some_layer. destruct (c_layers c); [discriminate C|discriminate].
  - intros l I. specialize (A l I). destruct (ly_chords l); auto. discriminate.
  - intros l I code L. specialize (B l I). rewrite forallb_forall in B. specialize (B (N.to_nat code)). rewrite Nnat.N2Nat.id in B.
    destruct (ly_keymap l code); auto; discriminate (B ltac:(apply in_seq; lia)).
Qed.
Lemma start_fresh : fresh_layers start.
Proof. apply freshb_ok. vm_compute. reflexivity. Qed.
