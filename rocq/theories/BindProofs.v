(* Bindings given as expressions: the proofs behind C31. *)
From Coq Require Import String Lia.
From Verif Require Import Base Lib KeyTable Keys Types Str MacroParse Ini Config SpecNotation SpecText TextProofs ParseWf ParseFrame ParseTotal SpecBind.
Local Open Scope list_scope.
Local Notation length := List.length.

(* ---- the target --------------------------------------------------------------------- *)
Lemma find_char_at c a b i : ~ In c a -> find_char c (a ++ c :: b) i = Some (i + length a).
Proof.
  revert i. induction a as [|x a IH]; intros i H; cbn [app find_char length].
  - rewrite N.eqb_refl. f_equal. lia.
  - destruct (N.eqb_spec x c) as [->|]; [destruct H; now left|]. rewrite IH; [f_equal; lia|]. intros G. apply H. now right.
Qed.
Lemma split_in (c : N) s : In c s -> exists a b, s = a ++ c :: b /\ ~ In c a.
Proof.
  induction s as [|x s IH]; intros []; [subst; now exists [], s|]. destruct (N.eq_dec x c) as [->|]; [now exists [], s|].
  destruct (IH H) as [a [b [-> G]]]. exists (x :: a), b. split; [easy|]. intros [?|?]; auto.
Qed.
Lemma find_char_absent c s i : ~ In c s -> find_char c s i = None.
Proof.
  revert i. induction s as [|x s IH]; intros i H; cbn [find_char]; [easy|]. destruct (N.eqb_spec x c) as [->|]; [destruct H; now left|].
  apply IH. intros G. apply H. now right.
Qed.
Lemma firstn_app_exact {A} (a b : list A) : firstn (length a) (a ++ b) = a.
Proof. rewrite firstn_app, Nat.sub_diag, firstn_all. cbn. apply app_nil_r. Qed.
Lemma skipn_app_exact {A} (a b : list A) x : skipn (S (length a)) (a ++ x :: b) = b.
Proof. induction a; [reflexivity|]. cbn [length app]. now rewrite skipn_cons. Qed.
Lemma target_split e l s : target e l s -> split_entry e = (l, s).
Proof.
  intros H. destruct H as [l s Hl Hd Hp|e H]; unfold split_entry.
  - rewrite find_char_at by easy. cbn [Nat.add]. destruct l as [|x l]; [easy|]. cbn [length].
    assert (E : (match find_char 40 ((x :: l) ++ 46%N :: s) 0 with Some p => Nat.ltb (S (length l)) p | None => true end) = true).
    { destruct (in_dec N.eq_dec 40%N s) as [Hi|Hi].
      - apply split_in in Hi as [a [b [-> Ha]]].
        change ((x :: l) ++ 46%N :: a ++ 40%N :: b) with ((x :: l) ++ (46%N :: a) ++ 40%N :: b). rewrite app_assoc, find_char_at.
        + rewrite app_length. cbn [length]. apply Nat.ltb_lt. lia.
        + intros G. apply in_app_or in G as [G|[G|G]]; [auto|discriminate|auto].
      - rewrite find_char_absent; [easy|]. intros G. apply in_app_or in G as [G|[G|G]]; [auto|discriminate|auto]. }
    rewrite E. change (S (length l)) with (length (x :: l)). rewrite firstn_app_exact. now rewrite skipn_app_exact.
  - destruct (in_dec N.eq_dec 46%N e) as [Hi|Hi]; [|now rewrite find_char_absent].
    apply split_in in Hi as [a [b [-> Ha]]]. rewrite find_char_at by easy. cbn [Nat.add].
    destruct (H a b eq_refl Ha) as [->|Hp]; [easy|]. destruct a as [|x a]; [easy|]. cbn [length].
    apply split_in in Hp as [u [v [E Hu]]]. rewrite E. rewrite <- app_assoc. cbn [app]. rewrite find_char_at by easy.
    assert (length (x :: a) = length u + S (length v)) by (rewrite E, app_length; cbn [length]; lia). cbn [length] in H0. cbn [Nat.add].
    destruct (Nat.ltb_spec (S (length a)) (length u)); [lia|easy].
Qed.
Lemma target_total e : exists l s, target e l s.
Proof.
  destruct (in_dec N.eq_dec 46%N e) as [Hi|Hi].
  - apply split_in in Hi as [a [b [-> Ha]]]. destruct a as [|x a].
    + exists (bs "main"), (46%N :: b). apply (target_main ([] ++ 46%N :: b)). intros l s E Hl. destruct l as [|y l]; [now left|].
      exfalso. injection E as <- E. apply Hl. now left.
    + destruct (in_dec N.eq_dec 40%N (x :: a)) as [Hp|Hp]; [|eexists _, _; now apply target_layer].
      exists (bs "main"), ((x :: a) ++ 46%N :: b). apply target_main. intros l s E Hl. right.
      assert (l = x :: a) as ->; [|easy].
      clear Hp. revert l E Hl. generalize (x :: a), Ha. clear. intros a. induction a as [|y a IH]; intros Ha l E Hl.
      * destruct l as [|z l]; [easy|]. injection E as <- E. destruct Hl. now left.
      * destruct l as [|z l]; [injection E as -> E; destruct Ha; now left|]. injection E as <- E. f_equal. eapply IH; eauto.
        -- intros G. apply Ha. now right.
        -- intros G. apply Hl. now right.
  - exists (bs "main"), e. apply target_main. intros l s -> _. exfalso. apply Hi. apply in_or_app. right. now left.
Qed.

(* ---- names -------------------------------------------------------------------------- *)
Lemma lookup_from_sound s : forall tbl i r, lookup_keycode_from tbl i s = r -> r <> 0%N ->
  exists j nm alt sh, r = (i + N.of_nat j)%N /\ nth_error tbl j = Some (Some nm, alt, sh) /\ (nm = s \/ alt = Some s).
Proof.
  induction tbl as [|[[nm alt] sh] tbl IH]; cbn [lookup_keycode_from]; intros i r H Hr; [congruence|].
  destruct nm as [nm|].
  - destruct (str_eqb nm s || opt_str_is alt s) eqn:E.
    + exists 0, nm, alt, sh. split; [lia|]. split; [easy|]. apply orb_true_iff in E as [E|E]; [left; now apply str_eqb_true|right].
      unfold opt_str_is in E. destruct alt; [|discriminate]. f_equal. now apply str_eqb_true.
    + destruct (IH _ _ H Hr) as [j [nm' [alt' [sh' [G1 [G2 G3]]]]]]. exists (S j), nm', alt', sh'. split; [lia|easy].
  - destruct (IH _ _ H Hr) as [j [nm' [alt' [sh' [G1 [G2 G3]]]]]]. exists (S j), nm', alt', sh'. split; [lia|easy].
Qed.
Lemma lookup_sound s : lookup_keycode s <> 0%N -> table_name s (lookup_keycode s).
Proof.
  intros H. destruct (lookup_from_sound s _ _ _ eq_refl H) as [j [nm [alt [sh [E [G [Hs|Hs]]]]]]]; try subst nm; try subst alt; fold (lookup_keycode s) in E;
    unfold table_name, name_of, alt_name_of, row; rewrite E, N.add_0_l, Nnat.Nat2N.id, (nth_error_nth _ _ _ G); cbn [fst snd];
    [now left|right; split; congruence].
Qed.
Definition name_unique (c : N) : bool :=
  match name_of c with
  | None => true
  | Some nm => (lookup_keycode nm =? c)%N && negb (c =? 0)%N
               && match alt_name_of c with None => true | Some [] => true | Some a => (lookup_keycode a =? c)%N end
  end.
Lemma names_unique : forallb name_unique (map N.of_nat (seq 0 256)) = true.
Proof. vm_compute. reflexivity. Qed.
Lemma name_unique_at c : name_unique c = true.
Proof.
  destruct (N.ltb_spec c 256).
  - pose proof names_unique as F. rewrite forallb_forall in F. apply F. apply in_map_iff. exists (N.to_nat c). split; [lia|].
    apply in_seq. lia.
  - unfold name_unique, name_of, row. rewrite nth_overflow; [easy|]. assert (length keycode_table = 256) as -> by (vm_compute; reflexivity). lia.
Qed.
Lemma lookup_complete s c : s <> [] -> table_name s c -> lookup_keycode s = c /\ c <> 0%N.
Proof.
  intros Hs H. pose proof (name_unique_at c) as U. unfold name_unique in U. destruct H as [H|[H1 H2]].
  - rewrite H in U. rewrite !andb_true_iff, negb_true_iff in U. destruct U as [[U1 U2] _]. apply N.eqb_eq in U1. apply N.eqb_neq in U2. auto.
  - destruct (name_of c); [|easy]. rewrite H2 in U. destruct s as [|x s]; [easy|].
    rewrite !andb_true_iff, negb_true_iff in U. destruct U as [[U1 U2] U3]. apply N.eqb_eq in U3. apply N.eqb_neq in U2. auto.
Qed.

(* ---- chords ------------------------------------------------------------------------- *)
Lemma tokens_skip d n r cur : ~ In d n -> tokens_from d (n ++ r) cur = tokens_from d r (rev n ++ cur).
Proof.
  revert cur. induction n as [|x n IH]; intros cur H; [reflexivity|]. cbn [app tokens_from rev].
  destruct (N.eqb_spec x d) as [->|]; [destruct H; now left|]. rewrite IH; [|intros G; apply H; now right]. now rewrite <- app_assoc.
Qed.
Lemma tokens_flush d s cur : cur <> [] -> tokens_from d (d :: s) cur = rev cur :: tokens_from d s [].
Proof. intros H. cbn [tokens_from]. rewrite N.eqb_refl. now destruct cur. Qed.
Lemma pluses_tokens s ns : pluses s ns -> tokens 43 s = ns.
Proof.
  unfold tokens. induction 1 as [|s ns H IH|n H1 H2|n s ns H1 H2 H IH].
  - reflexivity.
  - cbn [tokens_from]. exact IH.
  - rewrite <- (app_nil_r n) at 1. rewrite tokens_skip by easy. rewrite app_nil_r. cbn [tokens_from].
    destruct (rev n) eqn:E; [apply (f_equal (@rev N)) in E; rewrite rev_involutive in E; now subst|]. rewrite <- E. f_equal. apply rev_involutive.
  - rewrite tokens_skip by easy. rewrite app_nil_r. rewrite tokens_flush.
    + rewrite rev_involutive. now rewrite IH.
    + intros E. apply (f_equal (@rev N)) in E. rewrite rev_involutive in E. now subst.
Qed.
Lemma pluses_total : forall s, exists ns, pluses s ns.
Proof.
  intros s. remember (length s) as n eqn:Hn. revert s Hn. induction n as [n IH] using lt_wf_ind. intros s ->.
  destruct s as [|x s]; [eexists; constructor|]. destruct (N.eq_dec x 43) as [->|Hx].
  - destruct (IH (length s) ltac:(cbn [length]; lia) s eq_refl) as [ns G]. exists ns. now constructor.
  - destruct (in_dec N.eq_dec 43%N (x :: s)) as [Hi|Hi].
    + apply split_in in Hi as [a [b [E Ha]]]. destruct (IH (length b)) with (s := b) as [ns G]; [rewrite E, app_length; cbn [length]; lia|easy|].
      exists (a :: ns). rewrite E. apply pluses_cons; auto. intros ->. injection E as -> _. easy.
    + eexists. now apply pluses_last.
Qed.
Lemma chord_codes_ok : forall toks acc keys, chord_codes toks acc = Some keys ->
  exists cs, keys = acc ++ cs /\ Forall2 table_name toks cs.
Proof.
  induction toks as [|t toks IH]; cbn [chord_codes]; intros acc keys H.
  - injection H as <-. exists []. split; [now rewrite app_nil_r|constructor].
  - destruct (N.eqb_spec (lookup_keycode t) 0) as [|Hn]; [discriminate|]. destruct (Nat.leb _ _); [discriminate|].
    apply IH in H as [cs [-> F]]. exists (lookup_keycode t :: cs). rewrite <- app_assoc. split; [easy|]. constructor; auto. now apply lookup_sound.
Qed.
Lemma subset_incl keys c : forallb (fun k => existsb (N.eqb k) (ch_keys c)) keys = true <-> incl keys (ch_keys c).
Proof.
  rewrite forallb_forall. unfold incl. split; intros H a Ha.
  - apply H in Ha. apply existsb_exists in Ha as [x [Hx E]]. apply N.eqb_eq in E. now subst.
  - apply H in Ha. apply existsb_exists. exists a. split; [easy|apply N.eqb_refl].
Qed.
Lemma lookup_chord_ok keys : forall chs i,
  match lookup_chord_from chs keys i with
  | Some j => exists a c b, chs = a ++ c :: b /\ j = i + length a /\ incl keys (ch_keys c) /\ Forall (fun x => ~ incl keys (ch_keys x)) a
  | None => Forall (fun x => ~ incl keys (ch_keys x)) chs
  end.
Proof.
  induction chs as [|c chs IH]; intros i; cbn [lookup_chord_from]; [constructor|].
  destruct (forallb _ _) eqn:E.
  - exists [], c, chs. split; [easy|]. split; [cbn; lia|]. split; [now apply subset_incl|constructor].
  - assert (N : ~ incl keys (ch_keys c)) by (intros G; apply subset_incl in G; congruence).
    specialize (IH (S i)). destruct (lookup_chord_from chs keys (S i)) as [j|].
    + destruct IH as [a [x [b [-> [-> [G1 G2]]]]]]. exists (c :: a), x, b. split; [easy|]. split; [cbn [length]; lia|]. split; [easy|now constructor].
    + now constructor.
Qed.
Lemma upd_middle {A} (a : list A) x y b : upd (length a) y (a ++ x :: b) = a ++ y :: b.
Proof. induction a; cbn [length app upd]; [easy|]. now rewrite IHa. Qed.

(* ---- the layer ---------------------------------------------------------------------- *)
Lemma layer_index_ok n : forall ls i j, layer_index_from ls n i = Some j ->
  exists k, j = i + k /\ exists l, nth_error ls k = Some l /\ ly_name l = n
    /\ forall k' l', k' < k -> nth_error ls k' = Some l' -> ly_name l' <> n.
Proof.
  induction ls as [|l ls IH]; cbn [layer_index_from]; intros i j H; [discriminate|].
  destruct (str_eqb (ly_name l) n) eqn:E.
  - injection H as <-. exists 0. split; [lia|]. exists l. split; [easy|]. split; [now apply str_eqb_true|]. intros; lia.
  - apply IH in H as [k [-> [x [G1 [G2 G3]]]]]. exists (S k). split; [lia|]. exists x. split; [easy|]. split; [easy|].
    intros [|k'] l' Hk Hl; [injection Hl as <-; now apply str_eqb_false|]. eapply G3; [|exact Hl]. lia.
Qed.
Lemma layer_of_index c n i : config_get_layer_index c n = Some i -> layer_of c n i.
Proof. intros H. apply layer_index_ok in H as [k [-> G]]. exact G. Qed.
Lemma layer_of_unique c n i j : layer_of c n i -> layer_of c n j -> i = j.
Proof.
  intros [l [H1 [H2 H3]]] [l' [G1 [G2 G3]]]. destruct (Nat.lt_trichotomy i j) as [H|[H|H]]; auto.
  - now destruct (G3 _ _ H H1).
  - now destruct (H3 _ _ H G1).
Qed.
Lemma nth_error_upd_same {A} (l : list A) i x y : nth_error l i = Some y -> nth_error (upd i x l) i = Some x.
Proof. revert i. induction l as [|z l IH]; intros [|i] H; cbn in *; try discriminate; auto. Qed.
Lemma nth_error_upd_other {A} (l : list A) i j x : j <> i -> nth_error (upd i x l) j = nth_error l j.
Proof. revert i j. induction l as [|z l IH]; intros [|i] [|j] H; cbn; try easy. apply IH. lia. Qed.
Lemma length_upd {A} (l : list A) i x : length (upd i x l) = length l.
Proof. revert i. induction l as [|z l IH]; intros [|i]; cbn; auto. Qed.

(* what a bind does *)
Lemma bind_ok c e ln s key val c' : config_add_entry c e = Ok (c', true) -> target e ln s -> entry s (key, val) ->
  exists i l d l', layer_of c ln i /\ nth_error (c_layers c) i = Some l
    /\ (match val with None => d = DNone | Some v => exists c1, parse_descriptor c v = Ok (c1, Some d)
          /\ c_descs c' = c_descs c1 /\ c_macros c' = c_macros c1 /\ c_cmds c' = c_cmds c1 end)
    /\ tables_extended c c' /\ rest_same c c'
    /\ c_layers c' = upd i l' (c_layers c)
    /\ set_layer_entry (c_aliases c) l key d = Some l'.
Proof.
  intros H T En. rewrite add_entry_unfold in H. destruct (N.leb _ _); [discriminate|].
  rewrite (target_split _ _ _ T) in H. rewrite (entry_ok _ _ En) in H.
  destruct (config_get_layer_index c ln) as [i|] eqn:Ei; [|discriminate]. bstep H r Er. destruct r as [c1 d].
  assert (G : grows c c1). { destruct val; [eapply parse_desc_grows; exact Er|apply Ok_inj in Er; injection Er as <- _; apply grows_refl]. }
  destruct d as [d|]; [|discriminate]. destruct (grows_layers _ _ G) as [GL [GA _]]. rewrite GL, GA in H.
  destruct (set_layer_entry _ _ _ _) as [l'|] eqn:Es; [|discriminate]. apply Ok_inj in H. injection H as <-.
  apply layer_of_index in Ei. destruct Ei as [l [E1 [E2 E3]]]. pose proof (nth_error_nth _ _ zero_layer E1) as En1. rewrite En1 in Es.
  assert (TE : tables_extended c c1). { destruct G as [a [b [k ->]]]. split; [now exists a|]. split; [now exists b|now exists k]. }
  exists i, l, d, l'. split; [now exists l|]. split; [easy|]. split.
  { destruct val as [v|]; [exists c1; auto|]. apply Ok_inj in Er. injection Er as _ <-. auto. }
  split; [destruct TE as [TE1 [TE2 TE3]]; split; [exact TE1|split; [exact TE2|exact TE3]]|]. split.
  { destruct G as [a [b [k ->]]]. exists (upd i l' (c_layers c)), (c_descs c ++ a), (c_macros c ++ b), (c_cmds c ++ k). reflexivity. }
  split; [reflexivity|exact Es].
Qed.
Lemma only_layer_upd c c' i l f ch : nth_error (c_layers c) i = Some l ->
  c_layers c' = upd i (set_ly_keymap f (set_ly_chords ch l)) (c_layers c) -> only_layer i c c'.
Proof.
  intros El E. split; [rewrite E; apply length_upd|]. split; [intros j Hj; rewrite E; now apply nth_error_upd_other|].
  intros l0 E0. rewrite El in E0. injection E0 as <-. exists f, ch. rewrite E. eapply nth_error_upd_same; eauto.
Qed.
