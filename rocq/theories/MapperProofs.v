(* Proofs for C85. *)
From Coq Require Import String.
From Verif Require Import Base Lib Types Kbd Config Steps Hist Daemon DaemonProofs EntryProofs SpecClient Mapper SpecMapper.
From Verif Require PropServe ParseFrame.
Local Open Scope list_scope.
Local Open Scope N_scope.
Local Notation length := List.length.

(* ---- pieces --------------------------------------------------------------------------- *)
Lemma split_none f s : Forall (fun c => f c = false) s -> split f s = [s].
Proof. induction 1 as [|c s Hc H IH]; cbn [split]; [reflexivity|]. now rewrite Hc, IH. Qed.
Lemma split_app f s c r : Forall (fun c => f c = false) s -> f c = true -> split f (s ++ c :: r) = s :: split f r.
Proof. intros H Hc. induction H as [|x s Hx H IH]; cbn [split app]; [now rewrite Hc|]. now rewrite Hx, IH. Qed.
Lemma split_shape f q : exists p ps, split f q = p :: ps /\ Forall (fun c => f c = false) p
  /\ ((ps = [] /\ q = p) \/ exists c rest, f c = true /\ q = p ++ c :: rest /\ ps = split f rest).
Proof.
  induction q as [|c q (p & ps & E & F & C)]; cbn [split].
  - exists [], []. split; [reflexivity|]. split; [constructor|]. now left.
  - destruct (f c) eqn:Hc.
    + exists [], (split f q). split; [reflexivity|]. split; [constructor|]. right. exists c, q. auto.
    + rewrite E. exists (c :: p), ps. split; [reflexivity|]. split; [constructor; auto|].
      destruct C as [[-> ->]|(x & rest & A & -> & B)]; [now left|]. right. exists x, rest. auto.
Qed.
Lemma is_eol_ok c : is_eol c = true <-> eol c.
Proof. unfold is_eol, eol. rewrite orb_true_iff, !N.eqb_eq. tauto. Qed.
Lemma not_eol s : Forall (fun c => ~ eol c) s <-> Forall (fun c => is_eol c = false) s.
Proof. split; apply Forall_impl; intros c H; [destruct (is_eol c) eqn:E; [now apply is_eol_ok in E|reflexivity]|intros X; apply is_eol_ok in X; congruence]. Qed.
Lemma lines_split text ls : lines_of text ls <-> split is_eol text = ls.
Proof.
  split.
  - induction 1 as [s H|s c rest ls H Hc _ IH]; [apply split_none; now apply not_eol|]. rewrite split_app; [now rewrite IH|now apply not_eol|now apply is_eol_ok].
  - intros <-. remember (length text) as n eqn:En. assert (L : (length text <= n)%nat) by lia. clear En. revert text L.
    induction n as [|n IH]; intros text L; destruct (split_shape is_eol text) as (p & ps & E & F & C); rewrite E;
      (destruct C as [[-> ->]|(c & rest & Hc & -> & ->)]; [apply lines_last; now apply not_eol|]).
    + rewrite app_length in L. cbn [length] in L. lia.
    + apply lines_more; [now apply not_eol|now apply is_eol_ok|]. apply IH. rewrite app_length in L. cbn [length] in L. lia.
Qed.

(* ---- white space around a text ---------------------------------------------------------- *)
Lemma drop_app f a s : Forall (fun c => f c = true) a -> match s with [] => True | c :: _ => f c = false end -> drop f (a ++ s) = s.
Proof.
  intros H Hs. induction H as [|c a Hc H IH]; cbn [drop app].
  - destruct s as [|c s]; cbn [drop]; [reflexivity|]. now rewrite Hs.
  - now rewrite Hc.
Qed.
Lemma drop_shape f l : exists a, l = a ++ drop f l /\ Forall (fun c => f c = true) a /\ match drop f l with [] => True | c :: _ => f c = false end.
Proof.
  induction l as [|c l (a & E & F & C)]; cbn [drop].
  - exists []. split; [reflexivity|]. split; [constructor|exact Logic.I].
  - destruct (f c) eqn:Hc; [exists (c :: a); split; [cbn [app]; now f_equal|split; [constructor; auto|exact C]]|].
    exists []. split; [reflexivity|]. split; [constructor|exact Hc].
Qed.
Lemma rev_head (s : str) : s <> [] -> exists r, rev s = last s 0 :: r.
Proof. intros H. destruct (exists_last H) as (l & x & ->). rewrite rev_app_distr, last_last. cbn [rev app]. eauto. Qed.
Lemma strip_within f l s : within f l s <-> strip f l = s.
Proof.
  split.
  - intros (a & b & -> & Fa & Fb & Hs). unfold strip. destruct s as [|c s].
    + cbn [app]. assert (E : drop f (a ++ b) = []).
      { rewrite <- (app_nil_r (a ++ b)). apply drop_app; [apply Forall_app; auto|exact Logic.I]. }
      now rewrite E.
    + rewrite drop_app; [|exact Fa|apply Hs]. rewrite rev_app_distr, drop_app; [now rewrite rev_involutive|now apply Forall_rev|].
      destruct (rev_head (c :: s)) as [r ->]; [discriminate|]. apply Hs.
  - intros <-. unfold strip. destruct (drop_shape f l) as (a & E & Fa & Ca). destruct (drop_shape f (rev (drop f l))) as (b & E2 & Fb & Cb).
    set (x := drop f l) in *. set (y := drop f (rev x)) in *. clearbody y. clearbody x.
    assert (X : x = rev y ++ rev b). { rewrite <- (rev_involutive x), E2, rev_app_distr. reflexivity. }
    exists a, (rev b). split; [now rewrite <- X|]. split; [exact Fa|]. split; [now apply Forall_rev|].
    unfold bare. destruct (rev y) as [|c r] eqn:Er; [exact Logic.I|]. split.
    + rewrite X in Ca. exact Ca.
    + rewrite <- Er. destruct y as [|d y]; [discriminate Er|]. cbn [rev]. rewrite last_last. exact Cb.
Qed.

(* ---- the file ---------------------------------------------------------------------------- *)
Lemma no_bar s : ~ In 124 s <-> Forall (fun c => N.eqb 124 c = false) s.
Proof.
  rewrite Forall_forall. split.
  - intros H c Hc. apply N.eqb_neq. congruence.
  - intros H Hi. apply H in Hi. discriminate Hi.
Qed.
Lemma last_end (x : N) s y : last (x :: s ++ [y]) 0 = y.
Proof. change (x :: s ++ [y]) with ((x :: s) ++ [y]). apply last_last. Qed.
Lemma kind_means s c : means s c <-> kind s = c.
Proof.
  split.
  - intros [|s0|c0 Hc|c0 t rest Hc Ht Hr|x s0 Hx Hn].
    + reflexivity.
    + reflexivity.
    + unfold kind. rewrite last_end, removelast_last, split_none; [reflexivity|now apply no_bar].
    + replace (91 :: c0 ++ 124 :: t ++ rest ++ [93]) with (91 :: (c0 ++ 124 :: t ++ rest) ++ [93]) by (now rewrite <- app_assoc; cbn [app]; rewrite <- app_assoc).
      unfold kind. rewrite last_end, removelast_last, split_app; [|now apply no_bar|reflexivity].
      cbn [N.eqb Pos.eqb andb]. destruct Hr as [->|[r ->]].
      * rewrite app_nil_r, split_none; [reflexivity|now apply no_bar].
      * rewrite split_app; [reflexivity|now apply no_bar|reflexivity].
    + unfold kind. destruct ((x =? 91) && (last (x :: s0) 0 =? 93)) eqn:E.
      * exfalso. apply Hn. now rewrite andb_true_iff, !N.eqb_eq in E.
      * apply N.eqb_neq in Hx. now rewrite Hx.
  - intros <-. destruct s as [|x s]; [constructor|]. unfold kind. destruct ((x =? 91) && (last (x :: s) 0 =? 93)) eqn:E.
    + rewrite andb_true_iff, !N.eqb_eq in E. destruct E as [-> E].
      assert (Hs : s <> []) by (intros ->; discriminate E).
      assert (E2 : s = removelast s ++ [93]). { replace 93 with (last s 0); [now apply app_removelast_last|]. destruct s; [congruence|exact E]. }
      set (q := removelast s) in *. clearbody q. subst s. clear E Hs. destruct (split_shape (N.eqb 124) q) as (p & ps & -> & F & C). apply no_bar in F.
      destruct C as [[-> ->]|(c & rest & Hc & -> & ->)]; [now apply mean_class|]. apply N.eqb_eq in Hc. subst c.
      destruct (split_shape (N.eqb 124) rest) as (p2 & ps2 & -> & F2 & C2). apply no_bar in F2.
      destruct C2 as [[_ ->]|(c & rest2 & Hc & -> & _)].
      * rewrite <- app_assoc. cbn [app]. rewrite <- (app_nil_l [93]). apply mean_title; auto.
      * apply N.eqb_eq in Hc. subst c. replace (91 :: (p ++ 124 :: p2 ++ 124 :: rest2) ++ [93]) with (91 :: p ++ 124 :: p2 ++ (124 :: rest2) ++ [93])
          by (rewrite <- !app_assoc; cbn [app]; now rewrite <- app_assoc). apply mean_title; eauto.
    + destruct (x =? 35) eqn:Ex; [apply N.eqb_eq in Ex; subst; constructor|]. apply N.eqb_neq in Ex. apply mean_entry; [exact Ex|].
      intros [A B]. apply N.eqb_eq in A, B. rewrite A, B in E. discriminate E.
Qed.
Lemma entries_fold cs es : entries cs es -> forall c t b acc, fold_left add_line cs (Some ((c, t, b) :: acc)) = Some ((c, t, b ++ es) :: acc).
Proof.
  induction 1 as [|cs es H IH|e cs es H IH]; intros c t b acc; cbn [fold_left add_line].
  - now rewrite app_nil_r.
  - apply IH.
  - rewrite IH. now rewrite <- app_assoc.
Qed.
Lemma sections_fold cs ss : sections cs ss -> forall acc, fold_left add_line cs (Some acc) = Some (rev ss ++ acc).
Proof.
  induction 1 as [|cs ss H IH|c t body es rest ss He H IH]; intros acc; cbn [fold_left add_line].
  - reflexivity.
  - apply IH.
  - rewrite fold_left_app, (entries_fold _ _ He), IH. cbn [rev app]. now rewrite <- app_assoc.
Qed.
Definition headed (cs : list content) : Prop := match cs with [] => True | Head _ _ :: _ => True | _ => False end.
Lemma entries_split cs : exists body rest es, cs = body ++ rest /\ entries body es /\ headed rest.
Proof.
  induction cs as [|[|c t|e] cs (body & rest & es & -> & A & B)].
  - exists [], [], []. repeat split. constructor.
  - exists (Skip :: body), rest, es. repeat split; auto. now constructor.
  - exists [], (Head c t :: body ++ rest), []. repeat split. constructor.
  - exists (Entry e :: body), rest, (e :: es). repeat split; auto. now constructor.
Qed.
Lemma fold_none cs : fold_left add_line cs None = None.
Proof. induction cs; auto. Qed.
Lemma fold_sections n : forall cs acc out, (length cs <= n)%nat -> acc = [] \/ headed cs -> fold_left add_line cs (Some acc) = Some out ->
  exists ss, out = rev ss ++ acc /\ sections cs ss.
Proof.
  induction n as [|n IH]; intros cs acc out L Hs H.
  - destruct cs; [|cbn in L; lia]. injection H as <-. exists []. split; [reflexivity|constructor].
  - destruct cs as [|[|c t|e] cs]; cbn [fold_left add_line] in H.
    + injection H as <-. exists []. split; [reflexivity|constructor].
    + destruct Hs as [->|[]]. apply IH in H; [|cbn in L; lia|now left]. destruct H as (ss & E & S1). exists ss. split; [exact E|now constructor].
    + destruct (entries_split cs) as (body & rest & es & -> & He & Hh). rewrite fold_left_app, (entries_fold _ _ He) in H.
      apply IH in H; [|cbn in L; rewrite app_length in L; lia|now right]. destruct H as (ss & -> & S1).
      exists ((c, t, es) :: ss). split; [cbn [rev app]; now rewrite <- app_assoc|now constructor].
    + destruct Hs as [->|[]]. rewrite fold_none in H. discriminate H.
Qed.
Lemma F2_map {A B C} (g : A -> B) (h : B -> C) ls : forall cs, Forall2 (fun l c => h (g l) = c) ls cs <-> map (fun l => h (g l)) ls = cs.
Proof.
  induction ls as [|l ls IH]; intros [|c cs]; cbn [map]; split; intros H; try (inversion H; fail); try constructor; auto.
  - inversion H; subst. f_equal. now apply IH.
  - now injection H as <- _.
  - injection H as _ H. now apply IH.
Qed.
Lemma parse_says text ss : parse_config text = Some ss <-> file_says text ss.
Proof.
  assert (K : forall ls cs, Forall2 (fun l c => exists s, within py_space l s /\ means s c) ls cs <-> map (fun l => kind (strip py_space l)) ls = cs).
  { intros ls cs. rewrite <- (F2_map (strip py_space) kind). split; intros H; induction H as [|l c ls cs Hl H IH]; constructor; auto.
    - destruct Hl as (s & A & B). apply strip_within in A. apply kind_means in B. congruence.
    - exists (strip py_space l). split; [now apply strip_within|now apply kind_means]. }
  unfold parse_config, file_says. split.
  - intros H. exists (split is_eol text), (map (fun l => kind (strip py_space l)) (split is_eol text)).
    split; [now apply lines_split|]. split; [now apply K|].
    destruct (fold_left _ _ _) as [out|] eqn:E; [|discriminate H]. cbn [option_map] in H. injection H as <-.
    destruct (fold_sections (length (map (fun l => kind (strip py_space l)) (split is_eol text))) _ [] _ (le_n _) (or_introl eq_refl) E) as (s1 & -> & S1).
    now rewrite app_nil_r, rev_involutive.
  - intros (ls & cs & A & B & C). apply lines_split in A. subst ls. apply K in B. rewrite B, (sections_fold _ _ C). cbn [option_map].
    now rewrite app_nil_r, rev_involutive.
Qed.

(* ---- filters --------------------------------------------------------------------------- *)
Lemma wild_star p s : wild (42 :: p) s = (wild p s || match s with [] => false | _ :: r => wild (42 :: p) r end)%bool.
Proof. destruct s; reflexivity. Qed.
Lemma wild_other c p s : c <> 42 -> wild (c :: p) s = match s with [] => false | x :: r => ((c =? 63) || (c =? x)) && wild p r end.
Proof. intros H. apply N.eqb_neq in H. cbn [wild]. rewrite H. reflexivity. Qed.
Lemma wild_fits p : forall s, wild p s = true <-> fits p s.
Proof.
  intros s. split.
  - revert s. induction p as [|c p IH]; intros s H.
    + destruct s; [constructor|discriminate H].
    + destruct (N.eq_dec c 42) as [->|Hc].
      * induction s as [|x s IHs]; rewrite wild_star in H; apply orb_true_iff in H as [H|H]; try discriminate H.
        -- apply (fits_star p [] []). auto.
        -- apply (fits_star p [] (x :: s)). auto.
        -- apply IHs in H. inversion H as [|? a s0 H0| |? ? ? Hne]; subst; [apply (fits_star p (x :: a)); auto|congruence].
      * rewrite wild_other in H by exact Hc. destruct s as [|x s]; [discriminate H|]. apply andb_true_iff in H as [A B]. apply orb_true_iff in A as [A|A]; apply N.eqb_eq in A; subst.
        -- apply fits_any. auto.
        -- apply fits_same; auto.
  - induction 1 as [|p a s H IH|p x s H IH|p x s Hx H IH].
    + reflexivity.
    + induction a as [|x a IHa]; rewrite wild_star; [cbn [app]; now rewrite IH|]. cbn [app]. rewrite IHa. apply orb_true_r.
    + rewrite wild_other by discriminate. now rewrite IH.
    + rewrite wild_other by exact Hx. now rewrite IH, N.eqb_refl, orb_true_r.
Qed.
Lemma bracket_in p : existsb (N.eqb 91) p = true <-> In 91 p.
Proof.
  rewrite existsb_exists. split; [intros (x & H & E); apply N.eqb_eq in E; now subst|]. intros H. exists 91. split; [exact H|reflexivity].
Qed.
Lemma fnmatch_suits lib s p : fnmatch lib s p = true <-> suits lib p s.
Proof.
  unfold fnmatch, suits. pose proof (bracket_in p) as B. destruct (existsb (N.eqb 91) p).
  - assert (In 91 p) by now apply B. tauto.
  - assert (~ In 91 p) by (intros X; apply B in X; discriminate X). rewrite wild_fits. tauto.
Qed.
Lemma lookup_chosen lib cls title ss b : chosen lib cls title ss b <-> lookup_bindings lib ss cls title = b.
Proof.
  assert (M : forall c t, (fnmatch lib cls c && fnmatch lib title t)%bool = true <-> (suits lib c cls /\ suits lib t title)).
  { intros c t. now rewrite andb_true_iff, !fnmatch_suits. }
  split.
  - induction 1 as [|c t b ss b' A B H IH|c t b ss b' A H IH]; [reflexivity| |]; unfold lookup_bindings in *; cbn [flat_map]; rewrite IH.
    + destruct (_ && _)%bool eqn:E; [reflexivity|]. assert (X : suits lib c cls /\ suits lib t title) by auto. apply M in X. congruence.
    + destruct (_ && _)%bool eqn:E; [|reflexivity]. exfalso. apply A. now apply M.
  - intros <-. unfold lookup_bindings. induction ss as [|[[c t] b] ss IH]; cbn [flat_map]; [constructor|].
    destruct (_ && _)%bool eqn:E; [apply M in E as [A B]; now apply chosen_yes|]. apply chosen_no; [|exact IH]. intros X. apply M in X. congruence.
Qed.

(* ---- names ------------------------------------------------------------------------------ *)
Lemma spelt_skip ok c s ws : ok c = false -> spelt ok (c :: s) ws -> spelt ok s ws.
Proof.
  intros Hc H. inversion H as [|? ? ? _ H1|w s0 ws0 Hw Fw _ _ E]; subst; [exact H1|]. destruct w as [|x w]; [congruence|]. injection E as -> _.
  apply Forall_inv in Fw. congruence.
Qed.
Lemma spelt_word_split ok s : exists w s' ws, s = w ++ s' /\ Forall (fun c => ok c = true) w /\ (s' = [] \/ exists c r, s' = c :: r /\ ok c = false) /\ spelt ok s' ws.
Proof.
  induction s as [|c s (w & s' & ws & -> & F & C & H)].
  - exists [], [], []. repeat split; auto. constructor.
  - destruct (ok c) eqn:Hc.
    + exists (c :: w), s', ws. split; [reflexivity|]. split; [constructor; auto|]. auto.
    + destruct w as [|x w].
      * exists [], (c :: s'), ws. split; [reflexivity|]. split; [constructor|]. split; [right; eauto|]. now apply spelt_other.
      * exists [], (c :: (x :: w) ++ s'), ((x :: w) :: ws). split; [reflexivity|]. split; [constructor|]. split; [right; eauto|]. apply spelt_other; [exact Hc|].
        apply spelt_word; auto. discriminate.
Qed.
Lemma spelt_total ok s : exists ws, spelt ok s ws.
Proof.
  destruct (spelt_word_split ok s) as (w & s' & ws & -> & F & C & H). destruct w as [|x w]; [now exists ws|]. exists ((x :: w) :: ws). apply spelt_word; auto. discriminate.
Qed.
Lemma squeeze_word ok w : Forall (fun c => ok c = true) w -> w <> [] -> forall s b, squeeze ok (w ++ s) b = w ++ squeeze ok s false.
Proof.
  intros H. destruct H as [|x w Hx H]; [congruence|]. intros _ s b. cbn [app squeeze]. rewrite Hx. f_equal.
  induction H as [|y w Hy H IH]; [reflexivity|]. cbn [app squeeze]. rewrite Hy. now f_equal.
Qed.
Definition tail_ok (ws : list str) (post : str) : Prop := post = [] \/ (post = [45] /\ ws <> []).
Lemma squeeze_true ok s ws : spelt ok s ws -> exists post, squeeze ok s true = joined ws ++ post /\ tail_ok ws post.
Proof.
  induction 1 as [|c s ws Hc H IH|w s ws Hw Fw Hs H IH].
  - exists []. split; [reflexivity|now left].
  - cbn [squeeze]. now rewrite Hc.
  - rewrite (squeeze_word _ _ Fw Hw). destruct Hs as [->|(c & r & -> & Hc)].
    + assert (ws = []) as -> by (inversion H as [| |w0 s0 ws0 Hw0 _ _ _ E]; subst; [reflexivity|destruct w0; [congruence|discriminate E]]).
      exists []. split; [reflexivity|now left].
    + cbn [squeeze]. rewrite Hc. destruct IH as (post & E & T). cbn [squeeze] in E. rewrite Hc in E. rewrite E. destruct ws as [|w1 ws].
      * destruct T as [->|[_ T]]; [|congruence]. exists [45]. split; [reflexivity|right; split; [reflexivity|discriminate]].
      * exists post. split; [cbn [joined]; now rewrite <- app_assoc|]. destruct T as [->|[-> _]]; [now left|right; split; [reflexivity|discriminate]].
Qed.
Lemma spelt_words ok s ws : spelt ok s ws -> Forall (fun w => w <> [] /\ Forall (fun c => ok c = true) w) ws.
Proof. induction 1; auto. Qed.
Lemma joined_ends ok ws : Forall (fun w => w <> [] /\ Forall (fun c => ok c = true) w) ws -> ws <> [] ->
  (exists c r, joined ws = c :: r /\ ok c = true) /\ ok (last (joined ws) 0) = true.
Proof.
  induction 1 as [|w ws [Hw Fw] H IH]; [congruence|]. intros _.
  assert (L : ok (last w 0) = true). { rewrite Forall_forall in Fw. apply Fw. destruct (exists_last Hw) as (l & x & ->). rewrite last_last. apply in_app_iff. right. now left. }
  destruct ws as [|w2 ws].
  - cbn [joined]. split; [|exact L]. destruct w as [|c w]; [congruence|]. apply Forall_inv in Fw. eauto.
  - destruct IH as [(c & r & E & _) B]; [discriminate|]. change (joined (w :: w2 :: ws)) with (w ++ 45 :: joined (w2 :: ws)). split.
    + destruct w as [|c0 w]; [congruence|]. apply Forall_inv in Fw. cbn [app]. eauto.
    + rewrite E in *. replace (w ++ 45 :: c :: r) with ((w ++ [45]) ++ c :: r) by now rewrite <- app_assoc.
      rewrite (app_removelast_last 0 (l := c :: r)) by discriminate. rewrite app_assoc, last_last. exact B.
Qed.
Lemma hyphenate_spelt ok s ws : ok 45 = false -> spelt ok s ws -> hyphenate ok s = joined ws.
Proof.
  intros O H. unfold hyphenate. apply strip_within.
  assert (P : exists pre post, squeeze ok s false = pre ++ joined ws ++ post /\ (pre = [] \/ pre = [45]) /\ (post = [] \/ post = [45])).
  { destruct s as [|c s].
    - destruct (squeeze_true _ _ _ H) as (post & E & T). exists [], post. split; [exact E|]. split; [now left|]. destruct T as [->|[-> _]]; auto.
    - destruct (ok c) eqn:Hc.
      + destruct (squeeze_true _ _ _ H) as (post & E & T). exists [], post. split; [cbn [squeeze] in *; rewrite Hc in *; exact E|]. split; [now left|]. destruct T as [->|[-> _]]; auto.
      + destruct (squeeze_true _ _ _ (spelt_skip _ _ _ _ Hc H)) as (post & E & T). exists [45], post. split; [cbn [squeeze]; rewrite Hc, E; reflexivity|].
        split; [now right|]. destruct T as [->|[-> _]]; auto. }
  destruct P as (pre & post & -> & A & B).
  assert (F : forall x, x = [] \/ x = [45] -> Forall (fun c => N.eqb 45 c = true) x) by (intros x [->| ->]; repeat constructor).
  exists pre, post. split; [reflexivity|]. split; [auto|]. split; [auto|].
  destruct ws as [|w ws]; [exact Logic.I|]. destruct (joined_ends ok (w :: ws) (spelt_words _ _ _ H)) as [(c & r & E & X) Y]; [discriminate|].
  unfold bare. rewrite E in *. split; apply N.eqb_neq; intros Z; rewrite <- Z in *; congruence.
Qed.
Lemma joined_chars ok ws : Forall (fun w => w <> [] /\ Forall (fun c => ok c = true) w) ws -> forall c, In c (joined ws) -> ok c = true \/ c = 45.
Proof.
  induction 1 as [|w ws [_ Fw] H IH]; intros c Hc; [destruct Hc|]. rewrite Forall_forall in Fw. destruct ws as [|w2 ws]; [left; now apply Fw|].
  change (joined (w :: w2 :: ws)) with (w ++ 45 :: joined (w2 :: ws)) in Hc. apply in_app_iff in Hc as [Hc|[<-|Hc]]; auto.
Qed.
Lemma class_chars s c : In c (normalize_class s) -> 48 <= c <= 57 \/ 97 <= c <= 122 \/ c = 45.
Proof.
  unfold normalize_class. destruct (spelt_total alnum s) as [ws H]. rewrite (hyphenate_spelt alnum s ws eq_refl H). intros Hc.
  apply in_map_iff in Hc as (x & <- & Hx). apply (joined_chars alnum ws (spelt_words _ _ _ H)) in Hx as [Hx| ->]; [|auto].
  unfold alnum in Hx. unfold lower. rewrite !orb_true_iff, !andb_true_iff, !N.leb_le in Hx.
  destruct ((65 <=? x) && (x <=? 90)) eqn:E; [rewrite andb_true_iff, !N.leb_le in E; lia|]. rewrite andb_false_iff, !N.leb_gt in E. lia.
Qed.
Lemma fits_chars p s : fits p s -> forall x, In x p -> x = 42 \/ x = 63 \/ In x s.
Proof.
  induction 1 as [|p a s H IH|p y s H IH|p y s Hy H IH]; intros x Hx; [destruct Hx|destruct Hx as [Hx|Hx]..]; auto.
  - destruct (IH x Hx) as [A|[A|A]]; auto. right. right. apply in_app_iff. auto.
  - destruct (IH x Hx) as [A|[A|A]]; auto. right. right. now right.
  - right. right. now left.
  - destruct (IH x Hx) as [A|[A|A]]; auto. right. right. now right.
Qed.

(* ---- the daemon ------------------------------------------------------------------------- *)
Definition cfgs (d : dstate) : list (config * config) := map (fun k => (k_cfg k, k_orig k)) (d_ents d).
Lemma map_upd_same (g : kbd -> config * config) ks : forall n k k', nth_error ks n = Some k -> g k' = g k -> map g (upd n k' ks) = map g ks.
Proof.
  induction ks as [|x ks IH]; intros [|n] k k' E Hg; try discriminate; cbn [nth_error upd map] in *; [injection E as <-; now rewrite Hg|]. f_equal. eauto.
Qed.
Lemma store_cfgs p k k' d : deref d p = Ok k -> k_cfg k' = k_cfg k -> k_orig k' = k_orig k -> cfgs (store p k' d) = cfgs d.
Proof.
  unfold deref, cfgs, store. intros H A B. destruct (Nat.eqb _ _); [|discriminate]. destruct (nth_error _ _) as [k0|] eqn:E; [|discriminate]. apply Ok_inj in H. subst k0.
  cbn [d_ents set_d_ents]. eapply map_upd_same; [exact E|]. now rewrite A, B.
Qed.

Lemma run_cfgs fuel wr p ev d d' t : run_kbd fuel wr p ev d = Ok (d', t) -> cfgs d' = cfgs d.
Proof.
  intros H. apply run_inv in H as (k & k1 & d1 & A & B & C & ->). apply kbd_process_events_steps, steps_cfg in B as [B1 B2].
  rewrite (store_cfgs p k k1).
  - unfold cfgs. apply deliver_ents in C as (C & _). now rewrite C.
  - apply deliver_ents in C as (C2 & C1 & _). unfold deref in *. now rewrite C1, C2.
  - exact B1.
  - exact B2.
Qed.

Lemma other_cfgs fuel wr ev ts d d' t : match ev with EvClient _ m _ _ => i_type m <> IBind /\ i_type m <> IReload | _ => True end ->
  event_handler fuel wr ev ts d = Ok (d', t) -> cfgs d' = cfgs d.
Proof.
  intros Hev. apply (handler_rel fuel wr (fun a b => cfgs b = cfgs a) (fun _ => True) False False); try reflexivity.
  - intros a b c H1 H2. congruence.
  - intros c s e. unfold cfgs. destruct (dsend_ents c s e) as (A & _). now rewrite A.
  - intros p kev e e' t' H. eapply run_cfgs; eauto.
  - intros p k x y e H. eapply store_cfgs; [exact H|reflexivity|reflexivity].
  - intros con e e' _ H. assert (X : same_ents e e'); [|destruct X as (X & _); unfold cfgs; now rewrite X].
    revert H. apply listener_keeps; intros; try (repeat split; fail). eapply same_ents_trans; eauto.
  - intros ? ? ? ? [].
  - intros ? ? ? ? [].
  - destruct ev as [| | | |con m x g]; auto. unfold permitted. destruct Hev. destruct (i_type m); auto; congruence.
Qed.
Definition step_of (a : str) (x x' : config * config) : Prop :=
  snd x' = snd x /\ ((a = bs "reset" /\ fst x' = snd x) \/ (a <> bs "reset" /\ exists ok, config_add_entry (fst x) a = Ok (fst x', ok))).
Lemma bind_cfgs fuel wr con m texts grabs ts d d' t a : i_type m = IBind -> carries m a -> i_timeout m <= 1000000 ->
  event_handler fuel wr (EvClient con m texts grabs) ts d = Ok (d', t) -> Forall2 (step_of a) (cfgs d) (cfgs d').
Proof.
  intros Ht Hc Hl H. unfold event_handler in H. cbv zeta in H.
  destruct (handle_client _ _ _ _ _ _) as [d1| | |] eqn:E; cbn [bind] in H; try discriminate H. apply Ok_inj, pair_equal_spec in H as [<- _].
  destruct (PropServe.C72_bind _ _ _ _ _ _ _ _ Ht Hc Hl E) as (rs & ok & F & E1 & _). cbn [d_ents set_d_times] in F.
  unfold cfgs. cbn [d_ents set_d_times]. rewrite E1. clear -F. induction F as [|k x ks rs Hk F IH]; cbn [map]; constructor; [|exact IH].
  unfold kbd_eval in Hk. unfold step_of. cbn [fst snd]. destruct (str_eqb a (bs "reset")) eqn:Ea.
  - apply Ok_inj in Hk. subst x. cbn [fst k_cfg k_orig set_k_cfg]. split; [reflexivity|]. left. split; [now apply ParseFrame.str_eqb_true|reflexivity].
  - destruct (config_add_entry _ _) as [[c o]| | |]; cbn [bind] in Hk; try discriminate Hk. apply Ok_inj in Hk. subst x. cbn [fst k_cfg k_orig set_k_cfg].
    split; [reflexivity|]. right. split; [|eauto]. intros ->. discriminate Ea.
Qed.
Definition forced (args : list str) (x x' : config * config) : Prop := snd x' = snd x /\ in_force (snd x) (fst x) args (fst x').
Lemma handled_forced fuel wr d args d' : handled fuel wr d args d' -> Forall2 (forced args) (cfgs d) (cfgs d').
Proof.
  induction 1 as [d|d con m texts grabs ts d1 t a args d' Ht Hc Hl H _ IH|d ev ts d1 t args d' Hev H _ IH].
  - induction (cfgs d) as [|x l IH]; constructor; auto. split; [reflexivity|constructor].
  - apply (bind_cfgs _ _ _ _ _ _ _ _ _ _ a) in H; auto. revert IH. generalize (cfgs d'). induction H as [|x x1 l l1 Hx H IHl]; intros l' F; inversion F as [|? x' ? l2 Hx' F']; subst; constructor; auto.
    destruct Hx as [A B], Hx' as [C D]. split; [congruence|]. rewrite A in D. destruct B as [[-> B]|[Ha [ok B]]].
    + apply force_reset. rewrite B in D. exact D.
    + eapply force_bind; eauto.
  - now rewrite (other_cfgs _ _ _ _ _ _ _ Hev H) in IH.
Qed.
Lemma in_force_unique c0 c args c1 : in_force c0 c args c1 -> forall c2, in_force c0 c args c2 -> c1 = c2.
Proof.
  induction 1 as [c|c as_ c1 H IH|c a as_ c3 ok c1 Ha E H IH]; intros c2 H2.
  - now inversion H2.
  - inversion H2 as [|? ? ? G|? ? ? ? ? ? Hr]; subst; [auto|exfalso; now apply Hr].
  - inversion H2 as [|? ? ? G|? ? ? ? ? ? Hr E' G]; subst; [exfalso; now apply Ha|]. rewrite E in E'. apply Ok_inj, pair_equal_spec in E' as [<- _]. auto.
Qed.
