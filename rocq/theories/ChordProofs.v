(* Striking chords: when they fire and what happens when they do not. *)
From Verif Require Import Base Lib Keys Types MacroExec Kbd Config Engine Hist Steps SpecMods SpecLookup SpecActions
  SpecHist SpecTerm SpecDefer SpecChord ModsProofs ActProofs LookupProofs OneProofs CacheProofs Inv
  KeptProofs StepProofs TermProofs TimerProofs Times Retime Shift PropTerm DeferProofs ChordBare.

(* ---- which chords match -------------------------------------------------------------------- *)
Lemma in_keys_spec c keys : in_keys c keys = true <-> In c keys.
Proof.
  unfold in_keys. rewrite existsb_exists. split.
  - intros [x [H1 H2]]. apply N.eqb_eq in H2. now subst.
  - intros H. exists c. split; auto. apply N.eqb_refl.
Qed.
Lemma presses_fits keys : forall evs n, Forall press evs ->
  (Forall (fun e => In (ev_code e) keys) evs /\ chord_presses keys evs n = Some (n + length evs))
  \/ (~ Forall (fun e => In (ev_code e) keys) evs /\ chord_presses keys evs n = None).
Proof.
  induction evs as [|e r IH]; intros n H; cbn [chord_presses length].
  - left. split; [constructor|f_equal; lia].
  - inversion H as [|? ? [H1 _] H3]; subst. rewrite H1. destruct (in_keys (ev_code e) keys) eqn:Ek.
    + apply in_keys_spec in Ek. destruct (IH (S n) H3) as [[A B]|[A B]]; rewrite B; [left|right]; split; auto.
      * f_equal. lia.
      * intros X. inversion X; auto.
    + right. split; auto. intros X. inversion X as [|? ? X1 _]; subst. apply in_keys_spec in X1. congruence.
Qed.
Lemma match_spec ch evs : Forall press evs -> evs <> [] ->
  (chord_event_match ch evs = Full /\ complete ch evs)
  \/ (chord_event_match ch evs = Partial /\ fits ch evs /\ length evs <> length (ch_keys ch))
  \/ (chord_event_match ch evs = NoMatch /\ ~ fits ch evs).
Proof.
  intros H Hn. unfold chord_event_match, complete, fits.
  destruct (presses_fits (ch_keys ch) evs 0 H) as [[A B]|[A B]]; rewrite B; [|right; right; auto].
  cbn [plus]. destruct evs as [|e r]; [congruence|]. cbn [length].
  destruct (Nat.eqb_spec (S (length r)) (length (ch_keys ch))) as [E|E]; [left|right; left]; auto.
Qed.

Definition is_full (evs : list kev) (ch : chord) : Prop := chord_event_match ch evs = Full.
Definition is_part (evs : list kev) (ch : chord) : Prop := chord_event_match ch evs = Partial.

Lemma combine_seq_app {A} (l : list A) x n :
  combine (seq n (length (l ++ [x]))) (l ++ [x]) = combine (seq n (length l)) l ++ [(n + length l, x)].
Proof.
  revert n. induction l as [|a l IH]; intros n; cbn [app length seq combine].
  - now rewrite Nat.add_0_r.
  - rewrite IH. replace (n + S (length l)) with (S n + length l) by lia. reflexivity.
Qed.
(* the chords of one layer *)
Lemma check_chords evs ts li best mx part chs :
  let '(best', mx', part') :=
    fold_left (check_chord1 evs ts li) (combine (seq 0 (length chs)) chs) (best, mx, part) in
  (part' = true <-> part = true \/ exists ch, In ch chs /\ is_part evs ch)
  /\ ((best' = best /\ mx' = mx /\ ((ts < mx)%Z \/ forall ch, In ch chs -> ~ is_full evs ch))
      \/ ((mx <= ts)%Z /\ mx' = ts /\ exists pre ch post, chs = pre ++ ch :: post /\ best' = Some (li, length pre)
          /\ is_full evs ch /\ forall ch', In ch' post -> ~ is_full evs ch')).
Proof.
  induction chs as [|x l IH] using rev_ind.
  - cbn [length seq combine fold_left]. split; [|left; auto].
    split; [auto|]. intros [H|[ch [[] _]]]. exact H.
  - rewrite combine_seq_app, fold_left_app. cbn [fold_left]. rewrite Nat.add_0_l.
    destruct (fold_left (check_chord1 evs ts li) (combine (seq 0 (length l)) l) (best, mx, part)) as [[b1 m1] p1].
    destruct IH as [I1 I2]. unfold check_chord1 at 1. unfold is_full, is_part in *.
    assert (Ip : forall P : chord -> Prop, (exists ch, In ch (l ++ [x]) /\ P ch) <-> (exists ch, In ch l /\ P ch) \/ P x).
    { intros P. split.
      - intros [ch [H1 H2]]. apply in_app_or in H1 as [H1|[->|[]]]; eauto.
      - intros [[ch [H1 H2]]|H]; [exists ch|exists x]; split; auto; apply in_or_app; auto. right. now left. }
    destruct (chord_event_match x evs) eqn:Ex.
    + (* no match *)
      split; [rewrite Ip, I1; intuition congruence|].
      destruct I2 as [[-> [-> I2]]|[I2 [-> [pre [ch [post [-> [-> [I3 I4]]]]]]]]].
      * left. split; [auto|]. split; [auto|]. destruct I2 as [I2|I2]; [now left|right].
        intros ch Hc. apply in_app_or in Hc as [Hc|[<-|[]]]; [auto|congruence].
      * right. split; [auto|]. split; [auto|]. exists pre, ch, (post ++ [x]). rewrite <- app_assoc.
        split; [reflexivity|]. split; [auto|]. split; [auto|].
        intros ch' Hc. apply in_app_or in Hc as [Hc|[<-|[]]]; [auto|congruence].
    + (* partial *)
      split; [rewrite Ip; intuition auto|].
      destruct I2 as [[-> [-> I2]]|[I2 [-> [pre [ch [post [-> [-> [I3 I4]]]]]]]]].
      * left. split; [auto|]. split; [auto|]. destruct I2 as [I2|I2]; [now left|right].
        intros ch Hc. apply in_app_or in Hc as [Hc|[<-|[]]]; [auto|congruence].
      * right. split; [auto|]. split; [auto|]. exists pre, ch, (post ++ [x]). rewrite <- app_assoc.
        split; [reflexivity|]. split; [auto|]. split; [auto|].
        intros ch' Hc. apply in_app_or in Hc as [Hc|[<-|[]]]; [auto|congruence].
    + (* complete *)
      destruct (Z.leb_spec m1 ts) as [L|L].
      * split; [rewrite Ip, I1; intuition congruence|]. right. split.
        { destruct I2 as [[_ [-> _]]|[I2 _]]; auto. }
        split; [auto|]. exists l, x, []. split; [auto|]. split; [auto|]. split; [auto|]. intros ? [].
      * split; [rewrite Ip, I1; intuition congruence|].
        destruct I2 as [[-> [-> I2]]|[_ [-> _]]]; [|lia]. left. auto.
Qed.

Lemma layer_active_spec k i : i < nlayers k -> is_active k i = true <-> layer_active k i.
Proof.
  intros H. unfold is_active, layer_active. rewrite negb_true_iff, N.eqb_neq. unfold nlayers in H. intuition.
Qed.

Definition found (k : kbd) (evs : list kev) (n : nat) (acc : cmacc) : Prop :=
  let '(best, mx, part) := acc in
  (part = true <-> exists i ch, i < n /\ chord_at k i ch /\ is_part evs ch)
  /\ match best with
     | None => mx = (-1)%Z /\ forall i ch, i < n -> chord_at k i ch -> ~ is_full evs ch
     | Some (i, ci) => i < n /\ layer_active k i /\ mx = act_time k i
         /\ (exists pre ch post, ly_chords (layer_of k i) = pre ++ ch :: post /\ ci = length pre /\ is_full evs ch
               /\ forall ch', In ch' post -> ~ is_full evs ch')
         /\ forall j ch', j < n -> chord_at k j ch' -> is_full evs ch' ->
              (act_time k j < act_time k i)%Z \/ (act_time k j = act_time k i /\ j <= i)
     end.
Lemma check_layers k : (forall i, (0 <= l_time (k_ls k i))%Z) -> forall n, n <= nlayers k ->
  found k (h_queue (k_chord k)) n (fold_left (check_layer1 k) (seq 0 n) (None, (-1)%Z, false)).
Proof.
  intros Ht. induction n as [|n IH]; intros Hn.
  - cbn [seq fold_left found]. split; [|split; auto; intros; lia].
    split; [discriminate|]. intros [i [ch [H _]]]. lia.
  - rewrite seq_S, fold_left_app. cbn [fold_left plus]. specialize (IH ltac:(lia)).
    destruct (fold_left (check_layer1 k) (seq 0 n) (None, (-1)%Z, false)) as [[best mx] part].
    unfold check_layer1. cbn [found] in IH. destruct IH as [I1 I2].
    set (evs := h_queue (k_chord k)) in *. clearbody evs.
    destruct (is_active k n) eqn:Ea.
    + apply layer_active_spec in Ea; [|lia].
      pose proof (check_chords evs (l_time (k_ls k n)) n best mx part (ly_chords (layer_at k n))) as C.
      destruct (fold_left (check_chord1 evs (l_time (k_ls k n)) n) _ _) as [[best' mx'] part'].
      destruct C as [C1 C2]. cbn [found]. split.
      * rewrite C1, I1. split.
        -- intros [[i [ch [H1 H2]]]|[ch [H1 H2]]]; [exists i, ch; split; [lia|auto]|].
           exists n, ch. split; [lia|]. split; [split; auto|auto].
        -- intros [i [ch [H1 [H2 H3]]]]. destruct (Nat.eq_dec i n) as [->|E].
           ++ right. exists ch. split; [apply H2|auto].
           ++ left. exists i, ch. split; [lia|auto].
      * destruct C2 as [[-> [-> C2]]|[C2 [-> [pre [ch [post [C3 [-> [C4 C5]]]]]]]]].
        -- destruct best as [[i ci]|].
           ++ destruct I2 as [J1 [J2 [-> [J3 J4]]]]. split; [lia|]. split; [auto|]. split; [auto|]. split; [auto|].
              intros j ch' Hj Hc Hf. destruct (Nat.eq_dec j n) as [->|E]; [|apply (J4 j ch'); auto; lia].
              destruct C2 as [C2|C2]; [left; exact C2|]. elim (C2 ch'); auto. apply Hc.
           ++ destruct I2 as [-> J1]. split; [auto|]. intros i ch Hi Hc Hf.
              destruct (Nat.eq_dec i n) as [->|E]; [|apply (J1 i ch); auto; lia].
              destruct C2 as [C2|C2]; [specialize (Ht n); lia|]. apply (C2 ch); auto. apply Hc.
        -- split; [lia|]. split; [auto|]. split; [auto|]. split; [exists pre, ch, post; auto|].
           intros j ch' Hj Hc Hf. destruct (Nat.eq_dec j n) as [->|E]; [right; auto|].
           change (act_time k n) with (l_time (k_ls k n)). unfold act_time.
           destruct best as [[i ci]|].
           ++ destruct I2 as [J1 [J2 [-> [J3 J4]]]]. unfold act_time in *. destruct (J4 j ch'); auto; lia.
           ++ destruct I2 as [_ J1]. elim (J1 j ch'); auto. lia.
    + assert (Na : ~ layer_active k n).
      { intros X. apply layer_active_spec in X; [congruence|lia]. }
      assert (Nc : forall i ch, i < S n -> chord_at k i ch -> i < n).
      { intros i ch Hi Hc. destruct (Nat.eq_dec i n) as [->|E]; [elim Na; apply Hc|lia]. }
      cbn [found]. split.
      * rewrite I1. split; intros [i [ch [H1 [H2 H3]]]]; exists i, ch; split; auto; eauto.
      * destruct best as [[i ci]|].
        -- destruct I2 as [J1 [J2 [J5 [J3 J4]]]]. split; [lia|]. split; [auto|]. split; [auto|]. split; [auto|].
           intros j ch' Hj Hc Hf. apply (J4 j ch'); eauto.
        -- destruct I2 as [-> J1]. split; [auto|]. intros i ch Hi Hc. apply (J1 i ch); eauto.
Qed.

Inductive checked (k : kbd) (evs : list kev) : ccres * kbd -> Prop :=
| ck_none : ~ begun k evs -> unfinished k evs -> checked k evs (CC0, k)
| ck_part : begun k evs -> unfinished k evs -> checked k evs (CC1, k)
| ck_full i ch ci : ~ begun k evs -> winner k evs i ch -> nth_error (ly_chords (layer_of k i)) ci = Some ch ->
    checked k evs (CC2, set_k_chord (set_h_match (Some (i, ci)) (set_h_mlayer i (k_chord k))) k)
| ck_both i ch ci : begun k evs -> winner k evs i ch -> nth_error (ly_chords (layer_of k i)) ci = Some ch ->
    checked k evs (CC3, set_k_chord (set_h_match (Some (i, ci)) (set_h_mlayer i (k_chord k))) k).
Lemma check_spec k : (forall i, (0 <= l_time (k_ls k i))%Z) ->
  Forall press (h_queue (k_chord k)) -> h_queue (k_chord k) <> [] ->
  checked k (h_queue (k_chord k)) (check_chord_match k).
Proof.
  intros Ht Hp Hn. pose proof (check_layers k Ht (nlayers k) (Nat.le_refl _)) as F. unfold check_chord_match.
  set (evs := h_queue (k_chord k)) in *.
  destruct (fold_left (check_layer1 k) (seq 0 (nlayers k)) (None, (-1)%Z, false)) as [[best mx] part].
  destruct F as [F1 F2].
  assert (Full : forall ch, is_full evs ch <-> complete ch evs).
  { intros ch. unfold is_full. destruct (match_spec ch evs Hp Hn) as [[A B]|[[A [B C]]|[A B]]]; rewrite A; split; auto; try discriminate.
    - intros [_ X]. contradiction.
    - intros [X _]. contradiction. }
  assert (Part : part = true <-> begun k evs).
  { rewrite F1. unfold begun. split.
    - intros [i [ch [H1 [H2 H3]]]]. exists i, ch. split; auto. unfold is_part in H3.
      destruct (match_spec ch evs Hp Hn) as [[A B]|[[A [B C]]|[A B]]]; try congruence. auto.
    - intros [i [ch [H2 [H3 H4]]]]. exists i, ch. split; [apply H2|]. split; auto. unfold is_part.
      destruct (match_spec ch evs Hp Hn) as [[A B]|[[A [B C]]|[A B]]]; auto; [|contradiction].
      destruct B as [_ B]. contradiction. }
  clear F1. destruct best as [[i ci]|].
  - destruct F2 as [_ [A [_ [[pre [ch [post [E [-> [G1 G2]]]]]] G3]]]].
    assert (W : winner k evs i ch).
    { split; [auto|]. split; [now apply Full|]. split.
      - exists pre, post. split; auto. intros ch' Hc. rewrite <- Full. now apply G2.
      - intros j ch' Hc Hf. apply (G3 j ch'); auto; [apply Hc|now apply Full]. }
    assert (N1 : nth_error (ly_chords (layer_of k i)) (length pre) = Some ch).
    { rewrite E, nth_error_app2, Nat.sub_diag by lia. reflexivity. }
    destruct part.
    + eapply ck_both; eauto. now apply Part.
    + eapply ck_full; eauto. intros X. apply Part in X. discriminate.
  - destruct F2 as [_ F2].
    assert (U : unfinished k evs).
    { intros i ch Hc Hf. apply (F2 i ch); auto; [apply Hc|now apply Full]. }
    destruct part; [apply ck_part|apply ck_none]; auto.
    + now apply Part.
    + intros X. apply Part in X. discriminate.
Qed.

(* ---- winners are unique ---------------------------------------------------------------------- *)
Lemma last_such {A} (P : A -> Prop) : forall (pre pre' : list A) x x' post post',
  pre ++ x :: post = pre' ++ x' :: post' -> P x -> P x' ->
  (forall y, In y post -> ~ P y) -> (forall y, In y post' -> ~ P y) -> x = x'.
Proof.
  induction pre as [|a pre IH]; intros [|a' pre'] x x' post post' E Px Px' H H'; cbn [app] in E; injection E as E1 E2.
  - exact E1.
  - subst post. exfalso. apply (H x'); auto. apply in_or_app. right. now left.
  - subst post'. exfalso. apply (H' x); auto. apply in_or_app. right. now left.
  - eapply IH; eauto.
Qed.
Lemma winner_at k evs i ch : winner k evs i ch -> chord_at k i ch /\ complete ch evs.
Proof.
  intros [H1 [H2 [[pre [post [E _]]] _]]]. split; auto. split; auto. rewrite E. apply in_or_app. right. now left.
Qed.
Lemma winner_unique k evs i ch i' ch' : winner k evs i ch -> winner k evs i' ch' -> i = i' /\ ch = ch'.
Proof.
  intros H H'. pose proof (winner_at _ _ _ _ H) as [A1 A2]. pose proof (winner_at _ _ _ _ H') as [B1 B2].
  destruct H as [_ [_ [[pre [post [E F]]] G]]]. destruct H' as [_ [_ [[pre' [post' [E' F']]] G']]].
  assert (i = i').
  { destruct (G _ _ B1 B2) as [?|[? ?]]; destruct (G' _ _ A1 A2) as [?|[? ?]]; lia. }
  subst i'. split; auto. rewrite E in E'. apply (last_such (fun c => complete c evs) _ _ _ _ _ _ E'); auto.
Qed.

Lemma last_time_snoc evs e : last_time (evs ++ [e]) = ev_time e.
Proof. unfold last_time. rewrite map_app. cbn [map]. apply last_last. Qed.
Lemma snoc_split {A} (p q evs : list A) e : p ++ q = evs ++ [e] -> p = evs ++ [e] /\ q = [] \/ exists q', q = q' ++ [e] /\ p ++ q' = evs.
Proof.
  intros H. destruct q as [|x q] using rev_ind.
  - left. rewrite app_nil_r in H. auto.
  - right. rewrite app_assoc in H. apply app_inj_tail in H as [H1 H2]. subst x. eauto.
Qed.
Lemma none_snoc k evs e : none_complete k evs -> unfinished k (evs ++ [e]) -> none_complete k (evs ++ [e]).
Proof.
  intros H1 H2 p q E Hp. symmetry in E. apply snoc_split in E as [[-> _]|[q' [_ E]]]; auto. apply (H1 p q'); auto.
Qed.
Lemma longest_snoc k evs i ch extra e : longest k evs i ch extra -> unfinished k (evs ++ [e]) -> longest k (evs ++ [e]) i ch (extra ++ [e]).
Proof.
  intros [p [-> [Hp [W H]]]] U. exists p. rewrite app_assoc. split; auto. split; auto. split; auto.
  intros q1 q2 E Hq. symmetry in E. apply snoc_split in E as [[-> _]|[q' [_ E]]].
  - now rewrite app_assoc.
  - apply (H q1 q'); auto.
Qed.
Lemma longest_now k evs i ch : evs <> [] -> winner k evs i ch -> longest k evs i ch [].
Proof.
  intros H W. exists evs. rewrite app_nil_r. split; auto. split; auto. split; auto.
  intros q1 q2 E Hq. symmetry in E. apply app_eq_nil in E as [-> _]. congruence.
Qed.
Lemma longest_unique k evs i ch extra i' ch' extra' :
  longest k evs i ch extra -> longest k evs i' ch' extra' -> i = i' /\ ch = ch' /\ extra = extra'.
Proof.
  intros [p [E [Hp [W H]]]] [p' [E' [Hp' [W' H']]]].
  assert (X : p = p').
  { rewrite E in E'. apply app_eq_app in E' as [l [[E1 E2]|[E1 E2]]].
    - destruct l as [|a l]; [now rewrite app_nil_r in E1|]. exfalso.
      apply winner_at in W as [W1 W2]. apply (H' (a :: l) extra E2 ltac:(discriminate) i ch W1). now rewrite <- E1.
    - destruct l as [|a l]; [now rewrite app_nil_r in E1|]. exfalso.
      apply winner_at in W' as [W1 W2]. apply (H (a :: l) extra' E2 ltac:(discriminate) i' ch' W1). now rewrite <- E1. }
  subst p'. destruct (winner_unique _ _ _ _ _ _ W W') as [-> ->]. split; auto. split; auto.
  rewrite E in E'. now apply app_inv_head in E'.
Qed.
Lemma longest_length k evs i ch extra : longest k evs i ch extra ->
  skipn (length (ch_keys ch)) evs = extra /\ length (ch_keys ch) <= length evs.
Proof.
  intros [p [-> [_ [[_ [[_ E] _]] _]]]]. rewrite <- E. rewrite skipn_app, skipn_all, Nat.sub_diag, app_length. split; [reflexivity|lia].
Qed.
Lemma none_not_longest k evs i ch extra : none_complete k evs -> ~ longest k evs i ch extra.
Proof. intros H [p [E [Hp [W _]]]]. apply winner_at in W as [W1 W2]. now apply (H p extra E Hp i ch). Qed.

(* ---- the end of an attempt -------------------------------------------------------------------- *)
Definition mid (ts : list Z) (h : chst) (k : kbd) : kbd := set_k_timeouts ts (set_k_chord h k).

Lemma free_slot_of : forall acs n s, free_chord acs n = Some s -> n <= s
  /\ (exists a, nth_error acs (s - n) = Some a /\ ac_active a = false)
  /\ forall j a, j < s - n -> nth_error acs j = Some a -> ac_active a = true.
Proof.
  induction acs as [|a acs IH]; intros n s H; cbn [free_chord] in H; [discriminate|].
  destruct (ac_active a) eqn:Ea.
  - apply IH in H as [H1 [[b [H2 H3]] H4]]. split; [lia|]. replace (s - n) with (S (s - S n)) by lia. split.
    + exists b. auto.
    + intros [|j] b' Hj Hb; cbn [nth_error] in Hb; [now injection Hb as <-|]. apply (H4 j); auto. lia.
  - injection H as <-. rewrite Nat.sub_diag. split; [lia|]. split; [exists a; auto|]. intros j b Hj. lia.
Qed.
Lemma free_slot_unique k s s' : free_slot k s -> free_slot k s' -> s = s'.
Proof.
  intros [[a [A1 A2]] A3] [[b [B1 B2]] B3].
  destruct (Nat.lt_trichotomy s s') as [H|[H|H]]; auto.
  - rewrite (B3 _ _ H A1) in A2. discriminate.
  - rewrite (A3 _ _ H B1) in B2. discriminate.
Qed.

Lemma back_at_rest k k3 q now : k_cfg k3 = k_cfg k ->
  at_rest now (k_cfg k) (bare q k3) (fst (calculate_main_loop_timeout (set_cstate CsInactive k3) now)).
Proof.
  intros E. exists (set_h_state CsInactive (k_chord k3)). split; [reflexivity|]. rewrite <- E. destruct k3; reflexivity.
Qed.
Lemma replay_free f k2 evs k3 d : h_state (k_chord k2) = CsResolving ->
  kbd_process_events f k2 evs = Ok (k3, d) ->
  exists q, outcome (no_chords k2) evs (Ok (bare q k3, d)).
Proof.
  intros Hs E. set (q0 := mkCh [] None 0 0 CsInactive).
  assert (I : instep (k_chord k2) (no_chords k2) k2).
  { split; [reflexivity|]. exists q0. split; reflexivity. }
  pose proof (instep_events _ Hs f _ _ evs I) as A. rewrite E in A.
  destruct (kbd_process_events f (no_chords k2) evs) as [[kb db]| | |] eqn:Eb; cbn [agree] in A; try contradiction.
  destruct A as [[_ [q [_ A1]]] A2]. cbn [fst snd] in *. subst kb db. exists q. eapply outcome_of; [exact Eb|discriminate].
Qed.
Lemma events_keep_cfg f k evs k' d : kbd_process_events f k evs = Ok (k', d) -> k_cfg k' = k_cfg k.
Proof. intros E. eapply outcome_cfg. eapply outcome_of; [exact E|discriminate]. Qed.

Section Attempt.
Variable k : kbd.
Hypothesis k_idle : p_code (k_pend k) = 0%N.
Hypothesis k_times : forall i, (0 <= l_time (k_ls k i))%Z.
Hypothesis k_slots : length (k_achords k) <= 3.

(* nothing complete, or given up: everything is replayed *)
Lemma abort_spec f ts h evs e now kr b :
  bind (abort_plan (mid ts h k)) (run_plan (process_event f) (fun k evs => pe_loop (process_event f) f k evs 0 0) now)
    = Ok (kr, b) ->
  h_queue h = evs ++ e -> timers_of k evs ts ->
  b = true /\ given_up k evs e now (fst (calculate_main_loop_timeout kr now)).
Proof.
  intros H Hq Ht. unfold abort_plan, resolve_plan in H.
  set (k2 := set_cstate CsResolving _) in H.
  change (h_match (k_chord k2)) with (@None (nat * nat)) in H. change (h_queue (k_chord k2)) with (h_queue h) in H.
  rewrite Hq in H. cbn [bind run_plan] in H.
  bstep H r E. destruct r as [k3 d3]. apply Ok_inj, pair_equal_spec in H as [<- <-]. split; [reflexivity|].
  change (pe_loop (process_event f) f k2 (evs ++ e) 0 0) with (kbd_process_events f k2 (evs ++ e)) in E.
  pose proof (events_keep_cfg _ _ _ _ _ E) as Ec. apply replay_free in E as [q E]; [|reflexivity].
  exists ts, (bare q k3), d3. split; [exact Ht|]. split; [exact E|]. apply back_at_rest. rewrite Ec. reflexivity.
Qed.

(* a complete chord fires *)
Lemma fire_spec f ts h evs i ci ch extra now kr b s :
  bind (resolve_plan (mid ts h k)) (run_plan (process_event f) (fun k evs => pe_loop (process_event f) f k evs 0 0) now)
    = Ok (kr, b) ->
  h_match h = Some (i, ci) -> h_mlayer h = i -> nth_error (ly_chords (layer_of k i)) ci = Some ch ->
  skipn (length (ch_keys ch)) (h_queue h) = extra ->
  timers_of k evs ts -> nothing_due k (h_last h) ->
  free_slot k s -> unheld k (slot_code s) -> has_room k ->
  b = true /\ fires k evs s ch i (h_last h) extra now (fst (calculate_main_loop_timeout kr now)).
Proof.
  intros H Hm Hl Hn Hx Ht [Hd1 Hd2] Hs Hu Hr. unfold resolve_plan in H.
  change (h_match (k_chord (set_cstate CsResolving (mid ts h k)))) with (h_match h) in H. rewrite Hm in H.
  rewrite bind_assoc in H. bstep H ch' Ed.
  assert (ch' = ch).
  { unfold deref_match in Ed. destruct (_ && _); [|discriminate]. apply Ok_inj in Ed. subst ch'.
    apply nth_error_nth with (d := zero_chord) in Hn. exact Hn. }
  subst ch'. clear Ed.
  destruct (free_chord (k_achords (set_cstate CsResolving (mid ts h k))) 0) as [s'|] eqn:Ef; [|discriminate].
  change (k_achords (set_cstate CsResolving (mid ts h k))) with (k_achords k) in *.
  assert (s' = s).
  { apply (free_slot_unique k); auto. apply free_slot_of in Ef as [_ Ef]. rewrite Nat.sub_0_r in Ef. exact Ef. }
  subst s'. cbn [bind run_plan] in H.
  change (h_mlayer (k_chord (set_cstate CsResolving (mid ts h k)))) with (h_mlayer h) in H. rewrite Hl in H.
  change (h_queue (k_chord (set_cstate CsResolving (mid ts h k)))) with (h_queue h) in H.
  set (ka := set_k_achords _ _) in H.
  change (h_last (k_chord ka)) with (h_last h) in H.
  bstep H k2 E2. bstep E2 r Ep. destruct r as [k2' d2]. apply Ok_inj in E2. subst k2'.
  destruct (Nat.ltb (length (h_queue h)) (length (ch_keys ch))); [discriminate|]. rewrite Hx in H.
  bstep H r E3. destruct r as [k3 d3]. apply Ok_inj, pair_equal_spec in H as [<- <-]. split; [reflexivity|].
  (* the press *)
  destruct f as [|f]; [discriminate|]. cbn [process_event] in Ep. rewrite process_event_plan in Ep.
  unfold chord_plan in Ep. rewrite andb_false_r in Ep. cbn [negb] in Ep.
  change (h_state (k_chord ka)) with CsResolving in Ep. cbn [bind run_plan] in Ep.
  unfold after_chord, pending_plan in Ep. cbv zeta in Ep. change (k_pend ka) with (k_pend k) in Ep. rewrite k_idle in Ep.
  cbn [N.eqb bind run_pplan] in Ep. bstep Ep k1 Er. apply Ok_inj in Ep.
  unfold rest_step, expire_oneshot in Er. change (k_oneshot_to ka) with (k_oneshot_to k) in Er.
  replace (negb (k_oneshot_to k =? 0)%Z && (k_oneshot_to k <=? h_last h)%Z) with false in Er by lia.
  cbn [bind] in Er. unfold run_active_macro in Er. change (k_amacro ka) with (k_amacro k) in Er. rewrite Hd2 in Er. cbn [bind] in Er.
  unfold handle_key in Er. destruct (N.eqb_spec (chord_code s) 0) as [X|_]; [unfold chord_code, K_CHORD_1 in X; lia|].
  rewrite cache_get_unheld in Er by exact Hu.
  assert (El : lookup_descriptor ka (chord_code s) = (ch_d ch, i)).
  { assert (S3 : is_chord_code (chord_code s) = true /\ s < length (k_achords k)).
    { destruct Hs as [[a [Ha _]] _]. assert (L : s < length (k_achords k)) by (apply nth_error_Some; congruence).
      split; [|exact L]. unfold is_chord_code, chord_code, K_CHORD_1, K_CHORD_MAX.
      destruct (N.leb_spec 197 (197 + N.of_nat s)), (N.leb_spec (197 + N.of_nat s) 199); auto; lia. }
    destruct S3 as [S1 S2]. unfold lookup_descriptor. rewrite S1.
    replace (N.to_nat (chord_code s - K_CHORD_1)) with s by (unfold chord_code; lia).
    change (k_achords ka) with (upd s (mkAc true ch i) (k_achords k)). rewrite nth_upd_same by exact S2. reflexivity. }
  rewrite El in Er. clear El.
  destruct (cache_set_free ka (chord_code s) (mkCe 0 (ch_d ch) i 0) Hu Hr) as [j [J1 [J2 J3]]]. rewrite J3 in Er.
  cbn [ce_d ce_dl ce_layer] in Er.
  set (kx := set_k_cache _ ka) in Er.
  assert (Fx : k_chord k1 = k_chord ka /\ k_cfg k1 = k_cfg k).
  { unfold do_desc in Er. apply pd_frame in Er as [F1 [_ [F2 _]]]. rewrite F1, F2. split; reflexivity. }
  destruct Fx as [Fx Fc].
  unfold calculate_main_loop_timeout in Ep. apply pair_equal_spec in Ep as [Ep _].
  assert (Hz : h_state (k_chord k2) = CsResolving) by (rewrite <- Ep; cbn [k_chord set_k_timeouts]; rewrite Fx; reflexivity).
  change (pe_loop (process_event (S f)) (S f) k2 extra 0 0) with (kbd_process_events (S f) k2 extra) in E3.
  pose proof (events_keep_cfg _ _ _ _ _ E3) as Ec. apply replay_free in E3 as [q E3]; [|exact Hz].
  exists kx, k1, (bare q k3), d3. split; [|split; [exact Er|split]].
  - exists j, (k_chord ka), ts. split; [exact J1|]. split; [exact J2|]. split; [exact Ht|]. reflexivity.
  - rewrite Ep. exact E3.
  - apply back_at_rest. rewrite Ec, <- Ep. exact Fc.
Qed.

Definition so_far (evs : list kev) (m : option (nat * nat)) (ml : nat) : Prop :=
  match m with
  | None => none_complete k evs
  | Some (i, ci) => ml = i /\ exists ch extra, nth_error (ly_chords (layer_of k i)) ci = Some ch /\ longest k evs i ch extra
  end.
Definition poised (evs : list kev) (k' : kbd) : Prop :=
  (evs = [] /\ exists ts h, k' = mid ts h k /\ h_state h = CsInactive /\ timers_of k [] ts) \/ midway k evs k'.
Lemma timers_app evs l ts : timers_of k evs ts -> timers_of k (evs ++ l) ts.
Proof. intros H t Ht. destruct (H t Ht) as [A|[e [A B]]]; auto. right. exists e. split; auto. apply in_or_app. auto. Qed.
Lemma timers_more evs e ts : timers_of k evs ts ->
  timers_of k (evs ++ [e]) (ts ++ [(ev_time e + c_chord_interkey (k_cfg k))%Z])
  /\ timers_of k (evs ++ [e]) (ts ++ [(ev_time e + c_chord_hold (k_cfg k))%Z]).
Proof.
  intros H. split; intros t Ht; apply in_app_or in Ht as [Ht|[<-|[]]]; try exact (timers_app evs [e] ts H t Ht); right; exists e;
    (split; [apply in_or_app; right; now left|auto]).
Qed.
Lemma timers_hold evs ts : evs <> [] -> timers_of k evs ts ->
  timers_of k evs (ts ++ [(last_time evs + c_chord_hold (k_cfg k))%Z]).
Proof.
  intros Hn H t Ht. apply in_app_or in Ht as [Ht|[<-|[]]]; [now apply H|]. right.
  destruct evs as [|e l] using rev_ind; [congruence|]. rewrite last_time_snoc. exists e. split; [|auto].
  apply in_or_app. right. now left.
Qed.
Lemma timers_filter evs P ts : timers_of k evs ts -> timers_of k evs (filter P ts).
Proof. intros H t Ht. apply filter_In in Ht as [Ht _]. now apply H. Qed.

Lemma press_plan evs k' e r : poised evs k' -> press e -> chord_plan k' (ev_code e) true (ev_time e) = Ok r ->
  exists ts m ml lt st, timers_of k evs ts /\ so_far evs m ml /\ k_timeouts k' = ts
    /\ (let '(c, k2) := check_chord_match (mid ts (mkCh (evs ++ [e]) m ml lt st) k) in
        match c with
        | CC0 => match evs with [] => Ok (k2, PlanPass) | _ => abort_plan k2 end
        | _ => matched_plan k2 c (ev_time e)
        end) = Ok r.
Proof.
  intros Hp [Hpr Hc] H. unfold chord_plan in H. cbn [negb] in H. rewrite andb_false_r in H.
  destruct Hp as [[-> [ts [h [-> [Hs Ht]]]]]|[Hne [m [ml [ts [-> [Ht Hm]]]]]]].
  - change (h_state (k_chord (mid ts h k))) with (h_state h) in H. rewrite Hs in H.
    unfold enqueue_chord_event in H. destruct (N.eqb_spec (ev_code e) 0) as [X|_]; [contradiction|].
    change (h_queue (k_chord (set_k_chord _ _))) with (@nil kev) in H. cbn [length Nat.ltb Nat.leb MAX_QUEUE bind app] in H.
    exists ts, None, (h_mlayer h), (h_last h), (h_state h). split; [exact Ht|]. split; [|split; [reflexivity|]].
    + intros p q E Hp. symmetry in E. apply app_eq_nil in E as [-> _]. congruence.
    + cbn [app]. rewrite <- Hpr in H. replace (mkKev (ev_code e) (ev_pressed e) (ev_time e)) with e in H by now destruct e.
      exact H.
  - change (h_state (k_chord (set_k_timeouts ts (set_k_chord (mkCh evs m ml (last_time evs) CsDisambiguation) k))))
      with CsDisambiguation in H.
    destruct (N.eqb_spec (ev_code e) 0) as [X|_]; [contradiction|].
    unfold enqueue_chord_event in H. destruct (N.eqb_spec (ev_code e) 0) as [X|_]; [contradiction|].
    destruct (Nat.ltb _ _); [|discriminate]. cbn [bind] in H.
    exists ts, m, ml, (last_time evs), CsDisambiguation. split; [exact Ht|]. split; [exact Hm|]. split; [reflexivity|].
    rewrite <- Hpr in H. replace (mkKev (ev_code e) (ev_pressed e) (ev_time e)) with e in H by now destruct e.
    destruct evs as [|e0 evs]; [congruence|]. exact H.
Qed.

Lemma alarm_of k1 due time k' d : (0 <= time)%Z -> (time < due)%Z -> In due (k_timeouts k1) ->
  calculate_main_loop_timeout k1 time = (k', d) -> alarm_set k' due d (time + d).
Proof.
  intros H0 Ht Hi H. apply calc_spec in H as [H1 H2]; [|exact H0].
  assert (Hw : In due (k_timeouts k')) by (apply H1; auto).
  destruct H2 as [[H2 _]|[x [X1 [X2 X3]]]]; [rewrite H2 in Hw; destruct Hw|].
  pose proof X1 as X4. apply H1 in X4. replace (time + d)%Z with x by lia. unfold alarm_set. repeat split; auto; lia.
Qed.

Section Stroke.
Variables (f : nat) (evs : list kev) (k' : kbd) (e : kev) (k1 : kbd) (d : Z).
Hypothesis H_poised : poised evs k'.
Hypothesis H_evs : Forall press evs.
Hypothesis H_e : press e.
Hypothesis H_run : process_event (S f) k' (ev_code e) true (ev_time e) = Ok (k1, d).

Lemma stroke_open : exists ts m ml lt st, timers_of k evs ts /\ so_far evs m ml /\ k_timeouts k' = ts
  /\ exists c k2 r,
      checked (mid ts (mkCh (evs ++ [e]) m ml lt st) k) (evs ++ [e]) (c, k2)
      /\ match c with
         | CC0 => match evs with [] => Ok (k2, PlanPass) | _ => abort_plan k2 end
         | _ => matched_plan k2 c (ev_time e)
         end = Ok r
      /\ ('(k1, b1) <- run_plan (process_event f) (fun k evs => pe_loop (process_event f) f k evs 0 0) (ev_time e) r ;;
          if b1 : bool then Ok (calculate_main_loop_timeout k1 (ev_time e))
          else after_chord (fun k evs => pe_loop (process_event f) f k evs 0 0) k1 (ev_code e) true (ev_time e)) = Ok (k1, d).
Proof.
  pose proof H_run as H. cbn [process_event] in H. rewrite process_event_plan, bind_assoc in H. bstep H r E.
  destruct (press_plan evs k' e r H_poised H_e E) as [ts [m [ml [lt [st [T [S [K E0]]]]]]]]. clear E. rename E0 into E.
  exists ts, m, ml, lt, st. split; [exact T|]. split; [exact S|]. split; [exact K|].
  assert (C : checked (mid ts (mkCh (evs ++ [e]) m ml lt st) k) (evs ++ [e])
                (check_chord_match (mid ts (mkCh (evs ++ [e]) m ml lt st) k))).
  { apply (check_spec (mid ts (mkCh (evs ++ [e]) m ml lt st) k)); [exact k_times| |].
    - apply Forall_app. auto.
    - destruct evs; discriminate. }
  destruct (check_chord_match (mid ts (mkCh (evs ++ [e]) m ml lt st) k)) as [c k2]. exists c, k2, r.
  split; [exact C|]. split; [exact E|]. exact H.
Qed.

(* the keys struck so far are part of some chord: wait for more *)
Lemma stroke_on : begun k (evs ++ [e]) -> (0 <= ev_time e)%Z -> (0 < c_chord_interkey (k_cfg k))%Z ->
  midway k (evs ++ [e]) k1 /\ alarm_set k1 (ev_time e + c_chord_interkey (k_cfg k)) d (ev_time e + d).
Proof.
  intros Hb H0 Hi. destruct stroke_open as [ts [m [ml [lt [st [T [S [K [c [k2 [r [C [E H]]]]]]]]]]]]].
  assert (Hne : evs ++ [e] <> []) by (destruct evs; discriminate).
  inversion C as [B U|B U|i ch ci B W N0|i ch ci B W N0]; subst c k2; try (elim B; exact Hb);
    unfold matched_plan in E; cbv zeta in E; bstep E k3 E3; apply Ok_inj in E; subst r; apply schedule_ok in E3;
    cbn [bind run_plan] in H; apply Ok_inj in H; subst k3; cbn [k_cfg mid set_k_timeouts set_k_chord set_cstate] in H.
  - split.
    + split; [exact Hne|]. unfold calculate_main_loop_timeout in H. apply pair_equal_spec in H as [<- _].
      exists m, ml. eexists. rewrite last_time_snoc. split; [reflexivity|]. split.
      * apply timers_filter. cbn [k_timeouts set_k_timeouts]. now apply timers_more, T.
      * destruct m as [[i ci]|]; [|now apply none_snoc]. destruct S as [S1 [ch [extra [S2 S3]]]]. split; auto.
        exists ch, (extra ++ [e]). split; auto. now apply longest_snoc.
    + eapply alarm_of; [exact H0| |  |exact H]; [lia|]. cbn [k_timeouts set_k_timeouts]. apply in_or_app. right. now left.
  - split.
    + split; [exact Hne|]. unfold calculate_main_loop_timeout in H. apply pair_equal_spec in H as [<- _].
      exists (Some (i, ci)), i. eexists. rewrite last_time_snoc. split; [reflexivity|]. split.
      * apply timers_filter. cbn [k_timeouts set_k_timeouts]. now apply timers_more, T.
      * split; auto. exists ch, []. split; auto. now apply longest_now.
    + eapply alarm_of; [exact H0| |  |exact H]; [lia|]. cbn [k_timeouts set_k_timeouts]. apply in_or_app. right. now left.
Qed.
(* a chord is complete and no other is possible: it fires *)
Lemma stroke_fires i ch s : ~ begun k (evs ++ [e]) -> winner k (evs ++ [e]) i ch -> c_chord_hold (k_cfg k) = 0%Z ->
  nothing_due k (ev_time e) -> free_slot k s -> unheld k (slot_code s) -> has_room k ->
  fires k (evs ++ [e]) s ch i (ev_time e) [] (ev_time e) k1.
Proof.
  intros Hb Hw Hh Hd Hs Hu Hr. destruct stroke_open as [ts [m [ml [lt [st [T [S [K [c [k2 [r [C [E H]]]]]]]]]]]]].
  inversion C as [B U|B U|i' ch' ci B W N0|i' ch' ci B W N0]; subst c k2; try (elim Hb; exact B).
  - exfalso. apply winner_at in Hw as [W1 W2]. exact (U i ch W1 W2).
  - assert (X : i' = i /\ ch' = ch) by exact (winner_unique k _ _ _ _ _ W Hw). destruct X as [-> ->].
    unfold matched_plan in E. cbv zeta in E. change (c_chord_hold (k_cfg (set_k_chord _ (mid ts (mkCh (evs ++ [e]) m ml lt st) k)))) with (c_chord_hold (k_cfg k)) in E.
    rewrite Hh in E. cbn [Z.eqb] in E.
    match type of E with resolve_plan (set_k_chord ?x _) = _ => set (h := x) in E end.
    change (set_k_chord h _) with (mid ts h k) in E.
    bstep H r1 E1. destruct r1 as [k3 b3].
    destruct (fire_spec f ts h (evs ++ [e]) i ci ch [] (ev_time e) k3 b3 s) as [F1 F2]; auto.
    + rewrite E. exact E1.
    + change (h_queue h) with (evs ++ [e]). destruct Hw as [_ [[_ L] _]]. rewrite <- L. apply skipn_all.
    + now apply timers_app.
    + subst b3. apply Ok_inj in H. change (h_last h) with (ev_time e) in F2. rewrite H in F2. exact F2.
Qed.
(* no chord has these keys: the attempt is given up *)
Lemma stroke_foreign : evs <> [] -> ~ begun k (evs ++ [e]) -> unfinished k (evs ++ [e]) ->
  given_up k evs [e] (ev_time e) k1.
Proof.
  intros Hne Hb Hf. destruct stroke_open as [ts [m [ml [lt [st [T [S [K [c [k2 [r [C [E H]]]]]]]]]]]]].
  inversion C as [B U|B U|i' ch' ci B W N0|i' ch' ci B W N0]; subst c k2; try (elim Hb; exact B).
  - destruct evs as [|e0 evs0] eqn:Ee; [congruence|]. rewrite <- Ee in *.
    bstep H r1 E1. destruct r1 as [k3 b3].
    destruct (abort_spec f ts (mkCh (evs ++ [e]) m ml lt st) evs [e] (ev_time e) k3 b3) as [F1 F2]; auto.
    + rewrite E. exact E1.
    + subst b3. apply Ok_inj in H. rewrite H in F2. exact F2.
  - exfalso. apply winner_at in W as [W1 W2]. exact (Hf i' ch' W1 W2).
Qed.
(* ... unless it must be held for some time *)
Lemma stroke_holds i ch : ~ begun k (evs ++ [e]) -> winner k (evs ++ [e]) i ch ->
  (0 <= ev_time e)%Z -> (0 < c_chord_hold (k_cfg k))%Z ->
  holding k (evs ++ [e]) i ch [] [] k1 /\ alarm_set k1 (ev_time e + c_chord_hold (k_cfg k)) d (ev_time e + d).
Proof.
  intros Hb Hw H0 Hh. destruct stroke_open as [ts [m [ml [lt [st [T [S [K [c [k2 [r [C [E H]]]]]]]]]]]]].
  assert (Hne : evs ++ [e] <> []) by (destruct evs; discriminate).
  inversion C as [B U|B U|i' ch' ci B W N0|i' ch' ci B W N0]; subst c k2; try (elim Hb; exact B).
  - exfalso. apply winner_at in Hw as [W1 W2]. exact (U i ch W1 W2).
  - assert (X : i' = i /\ ch' = ch) by exact (winner_unique k _ _ _ _ _ W Hw). destruct X as [-> ->].
    unfold matched_plan in E. cbv zeta in E. change (c_chord_hold (k_cfg (set_k_chord _ (mid ts (mkCh (evs ++ [e]) m ml lt st) k)))) with (c_chord_hold (k_cfg k)) in E.
    destruct (Z.eqb_spec (c_chord_hold (k_cfg k)) 0) as [X|_]; [lia|]. bstep E k3 E3. apply Ok_inj in E. subst r.
    apply schedule_ok in E3. cbn [bind run_plan] in H. apply Ok_inj in H. subst k3.
    split.
    + split; [exact Hne|]. unfold calculate_main_loop_timeout in H. apply pair_equal_spec in H as [<- _].
      exists ci. eexists. rewrite last_time_snoc, app_nil_r. split; [reflexivity|]. split; [|split; [exact N0|now apply longest_now]].
      apply timers_filter. cbn [k_timeouts set_k_timeouts]. now apply timers_more.
    + eapply alarm_of; [exact H0| |  |exact H]; [lia|]. cbn [k_timeouts set_k_timeouts]. apply in_or_app. right. now left.
Qed.
End Stroke.

Lemma loose_none code : loose k code -> chord_of_key (k_achords k) code 0 = None.
Proof.
  unfold loose. generalize (k_achords k) as l. clear. intros l. generalize 0 as n.
  induction l as [|a l IH]; intros n H; [reflexivity|]. cbn [chord_of_key].
  destruct (ac_active a && in_keys code (ch_keys (ac_chord a))) eqn:E.
  - apply andb_true_iff in E as [E1 E2]. apply in_keys_spec in E2. elim (H a); auto. now left.
  - apply IH. intros ac Ha. apply H. now right.
Qed.
(* a key is released *)
Lemma release_gives_up f evs k' e k1 d : midway k evs k' -> release e -> loose k (ev_code e) ->
  process_event (S f) k' (ev_code e) false (ev_time e) = Ok (k1, d) -> given_up k evs [e] (ev_time e) k1.
Proof.
  intros [Hne [m [ml [ts [-> [Ht Hm]]]]]] [Hr Hc] Hl H.
  set (h := mkCh evs m ml (last_time evs) CsDisambiguation) in *.
  change (set_k_timeouts ts (set_k_chord h k)) with (mid ts h k) in H.
  cbn [process_event] in H. rewrite process_event_plan in H. bstep H r1 E1. destruct r1 as [k3 b3].
  unfold chord_plan in E1. cbn [negb] in E1. change (k_achords (mid ts h k)) with (k_achords k) in E1.
  rewrite loose_none in E1 by exact Hl. replace (if negb (ev_code e =? 0)%N && true then None else None) with (@None nat) in E1
    by (destruct (_ && _); reflexivity).
  change (h_state (k_chord (mid ts h k))) with CsDisambiguation in E1.
  unfold enqueue_chord_event in E1. destruct (N.eqb_spec (ev_code e) 0) as [X|_]; [contradiction|].
  destruct (Nat.ltb _ _); [|discriminate]. cbn [bind] in E1.
  rewrite <- Hr in E1. replace (mkKev (ev_code e) (ev_pressed e) (ev_time e)) with e in E1 by now destruct e.
  change (set_k_chord _ (mid ts h k)) with (mid ts (set_h_queue (evs ++ [e]) h) k) in E1.
  destruct (abort_spec f ts (set_h_queue (evs ++ [e]) h) evs [e] (ev_time e) k3 b3) as [F1 F2]; auto.
  subst b3. apply Ok_inj in H. rewrite H in F2. exact F2.
Qed.

(* ---- ticks -------------------------------------------------------------------------------- *)
Lemma tick_rest ts h t : nothing_due k t ->
  after_chord (fun _ _ => UB) (mid ts h k) 0%N false t = Ok (calculate_main_loop_timeout (mid ts h k) t).
Proof.
  intros [Hd1 Hd2]. unfold after_chord, pending_plan. cbv zeta. change (k_pend (mid ts h k)) with (k_pend k). rewrite k_idle.
  cbn [N.eqb bind run_pplan]. unfold rest_step, expire_oneshot. change (k_oneshot_to (mid ts h k)) with (k_oneshot_to k).
  replace (negb (k_oneshot_to k =? 0)%Z && (k_oneshot_to k <=? t)%Z) with false by lia.
  cbn [bind]. unfold run_active_macro. change (k_amacro (mid ts h k)) with (k_amacro k). rewrite Hd2. reflexivity.
Qed.
Lemma tick_rest_any pes ts h t : nothing_due k t ->
  after_chord pes (mid ts h k) 0%N false t = Ok (calculate_main_loop_timeout (mid ts h k) t).
Proof.
  intros Hd. rewrite <- (tick_rest ts h t Hd). unfold after_chord, pending_plan. cbv zeta.
  change (k_pend (mid ts h k)) with (k_pend k). rewrite k_idle. reflexivity.
Qed.
Lemma tick_poised f evs k' t k1 d : poised evs k' -> nothing_due k t ->
  (evs <> [] -> (t < last_time evs + c_chord_interkey (k_cfg k))%Z) ->
  process_event (S f) k' 0%N false t = Ok (k1, d) ->
  poised evs k1 /\ exists k2, k_timeouts k2 = k_timeouts k' /\ calculate_main_loop_timeout k2 t = (k1, d).
Proof.
  intros Hp Hd Ht H. cbn [process_event] in H. rewrite process_event_plan in H.
  destruct Hp as [[-> [ts [h [-> [Hs T]]]]]|[Hne [m [ml [ts [-> [T Hm]]]]]]].
  - rewrite chord_plan_open in H by (split; [exact Hs|now left]). cbn [bind run_plan] in H.
    set (h1 := set_h_queue (if (0 =? 0)%N then [] else [mkKev 0%N false t]) (set_h_match None (set_h_queue [] h))).
    change (chord_seen (mid ts h k) 0%N false t) with (mid ts h1 k) in H. rewrite tick_rest_any in H by exact Hd.
    apply Ok_inj in H. split; [|exists (mid ts h1 k); split; [reflexivity|exact H]].
    unfold calculate_main_loop_timeout in H. apply pair_equal_spec in H as [<- _].
    left. split; [reflexivity|]. eexists. exists h1. split; [reflexivity|]. split; [exact Hs|]. now apply timers_filter.
  - specialize (Ht Hne).
    set (h := mkCh evs m ml (last_time evs) CsDisambiguation) in *.
    change (set_k_timeouts ts (set_k_chord h k)) with (mid ts h k) in *.
    unfold chord_plan in H. cbn [N.eqb negb andb] in H. change (h_state (k_chord (mid ts h k))) with CsDisambiguation in H.
    change (h_last (k_chord (mid ts h k))) with (last_time evs) in H.
    change (c_chord_interkey (k_cfg (mid ts h k))) with (c_chord_interkey (k_cfg k)) in H.
    destruct (Z.leb_spec (c_chord_interkey (k_cfg k)) (t - last_time evs)) as [X|_]; [lia|]. cbn [bind run_plan] in H.
    rewrite tick_rest_any in H by exact Hd.
    apply Ok_inj in H. split; [|exists (mid ts h k); split; [reflexivity|exact H]].
    unfold calculate_main_loop_timeout in H. apply pair_equal_spec in H as [<- _].
    right. split; [exact Hne|]. exists m, ml. eexists. split; [reflexivity|]. split; [now apply timers_filter|exact Hm].
Qed.
(* the time for the next key is over *)
Lemma late_plan f evs m ml ts t k1 d : let h := mkCh evs m ml (last_time evs) CsDisambiguation in
  (last_time evs + c_chord_interkey (k_cfg k) <= t)%Z ->
  process_event (S f) (mid ts h k) 0%N false t = Ok (k1, d) ->
  exists r, match m with
            | None => abort_plan (mid ts h k)
            | Some _ => if (0 <? c_chord_hold (k_cfg k) - c_chord_interkey (k_cfg k))%Z
                        then ka <- schedule_timeout (mid ts h k) (t + (c_chord_hold (k_cfg k) - c_chord_interkey (k_cfg k))) ;;
                             Ok (set_cstate CsHold ka, PlanTaken)
                        else resolve_plan (mid ts h k)
            end = Ok r
    /\ ('(k1, b1) <- run_plan (process_event f) (fun k evs => pe_loop (process_event f) f k evs 0 0) t r ;;
        if b1 : bool then Ok (calculate_main_loop_timeout k1 t)
        else after_chord (fun k evs => pe_loop (process_event f) f k evs 0 0) k1 0%N false t) = Ok (k1, d).
Proof.
  intros h Ht H. cbn [process_event] in H. rewrite process_event_plan, bind_assoc in H. bstep H r E.
  exists r. split; [|exact H].
  unfold chord_plan in E. cbn [N.eqb negb andb] in E. change (h_state (k_chord (mid ts h k))) with CsDisambiguation in E.
  change (h_last (k_chord (mid ts h k))) with (last_time evs) in E.
  change (c_chord_interkey (k_cfg (mid ts h k))) with (c_chord_interkey (k_cfg k)) in E.
  change (c_chord_hold (k_cfg (mid ts h k))) with (c_chord_hold (k_cfg k)) in E.
  destruct (Z.leb_spec (c_chord_interkey (k_cfg k)) (t - last_time evs)) as [_|X]; [|lia].
  change (h_match (k_chord (mid ts h k))) with m in E. exact E.
Qed.
Lemma late_gives_up f evs k' t k1 d : midway k evs k' -> none_complete k evs ->
  (last_time evs + c_chord_interkey (k_cfg k) <= t)%Z ->
  process_event (S f) k' 0%N false t = Ok (k1, d) -> given_up k evs [] t k1.
Proof.
  intros [Hne [m [ml [ts [-> [T Hm]]]]]] Hn Ht H. apply late_plan in H as [r [E H]]; [|exact Ht].
  destruct m as [[i ci]|].
  { destruct Hm as [_ [ch [extra [_ Hm]]]]. now apply none_not_longest in Hm. }
  bstep H r1 E1. destruct r1 as [k3 b3].
  destruct (abort_spec f ts (mkCh evs None ml (last_time evs) CsDisambiguation) evs [] t k3 b3) as [F1 F2]; auto.
  - rewrite E. exact E1.
  - cbn [h_queue]. now rewrite app_nil_r.
  - subst b3. apply Ok_inj in H. rewrite H in F2. exact F2.
Qed.
Lemma late_fires f evs k' t k1 d i ch extra s : midway k evs k' -> longest k evs i ch extra ->
  (c_chord_hold (k_cfg k) <= c_chord_interkey (k_cfg k))%Z ->
  (last_time evs + c_chord_interkey (k_cfg k) <= t)%Z -> nothing_due k (last_time evs) ->
  free_slot k s -> unheld k (slot_code s) -> has_room k ->
  process_event (S f) k' 0%N false t = Ok (k1, d) -> fires k evs s ch i (last_time evs) extra t k1.
Proof.
  intros [Hne [m [ml [ts [-> [T Hm]]]]]] Hl Hh Ht Hd Hs Hu Hr H. apply late_plan in H as [r [E H]]; [|exact Ht].
  destruct m as [[i' ci]|]; [|now apply none_not_longest in Hl].
  destruct Hm as [-> [ch' [extra' [N0 Hm]]]]. destruct (longest_unique _ _ _ _ _ _ _ _ Hm Hl) as [-> [-> ->]].
  replace (0 <? _)%Z with false in E by lia.
  bstep H r1 E1. destruct r1 as [k3 b3].
  destruct (fire_spec f ts (mkCh evs (Some (i, ci)) i (last_time evs) CsDisambiguation) evs i ci ch extra t k3 b3 s) as [F1 F2]; auto.
  - rewrite E. exact E1.
  - cbn [h_queue]. eapply longest_length; eauto.
  - subst b3. apply Ok_inj in H. rewrite H in F2. exact F2.
Qed.
Lemma late_holds f evs k' k1 d i ch extra : midway k evs k' -> longest k evs i ch extra ->
  (c_chord_interkey (k_cfg k) < c_chord_hold (k_cfg k))%Z ->
  let t := (last_time evs + c_chord_interkey (k_cfg k))%Z in (0 <= t)%Z ->
  process_event (S f) k' 0%N false t = Ok (k1, d) ->
  holding k evs i ch extra [] k1 /\ alarm_set k1 (last_time evs + c_chord_hold (k_cfg k)) d (t + d).
Proof.
  intros [Hne [m [ml [ts [-> [T Hm]]]]]] Hl Hh t H0 H. apply late_plan in H as [r [E H]]; [|unfold t; lia].
  destruct m as [[i' ci]|]; [|now apply none_not_longest in Hl].
  destruct Hm as [-> [ch' [extra' [N0 Hm]]]]. destruct (longest_unique _ _ _ _ _ _ _ _ Hm Hl) as [-> [-> ->]].
  replace (0 <? _)%Z with true in E by lia. bstep E ka Ea. apply Ok_inj in E. subst r. apply schedule_ok in Ea. subst ka.
  cbn [bind run_plan] in H. apply Ok_inj in H.
  replace (t + (c_chord_hold (k_cfg k) - c_chord_interkey (k_cfg k)))%Z with (last_time evs + c_chord_hold (k_cfg k))%Z in H by (unfold t; lia).
  split.
  - split; [exact Hne|]. unfold calculate_main_loop_timeout in H. apply pair_equal_spec in H as [<- _].
    exists ci. eexists. rewrite app_nil_r. split; [reflexivity|]. split; [|split; assumption].
    apply timers_filter. cbn [k_timeouts set_k_timeouts]. now apply timers_hold.
  - eapply alarm_of; [exact H0| |  |exact H]; [unfold t; lia|]. cbn [k_timeouts set_k_timeouts set_cstate set_k_chord]. apply in_or_app. right. now left.
Qed.

(* ---- a chord that must be held -------------------------------------------------------------- *)
Lemma hold_tick f evs i ch extra more k' t k1 d : holding k evs i ch extra more k' -> nothing_due k t ->
  (t < last_time evs + c_chord_hold (k_cfg k))%Z ->
  process_event (S f) k' 0%N false t = Ok (k1, d) ->
  holding k evs i ch extra more k1 /\ exists k2, k_timeouts k2 = k_timeouts k' /\ calculate_main_loop_timeout k2 t = (k1, d).
Proof.
  intros [Hne [ci [ts [-> [T [N0 Hl]]]]]] Hd Ht H. cbn [process_event] in H. rewrite process_event_plan in H.
  set (h := mkCh (evs ++ more) (Some (i, ci)) i (last_time evs) CsHold) in *.
  change (set_k_timeouts ts (set_k_chord h k)) with (mid ts h k) in *.
  unfold chord_plan in H. cbn [N.eqb negb andb] in H. change (h_state (k_chord (mid ts h k))) with CsHold in H.
  change (h_last (k_chord (mid ts h k))) with (last_time evs) in H.
  change (c_chord_hold (k_cfg (mid ts h k))) with (c_chord_hold (k_cfg k)) in H.
  destruct (Z.leb_spec (c_chord_hold (k_cfg k)) (t - last_time evs)) as [X|_]; [lia|]. cbn [bind run_plan] in H.
  rewrite tick_rest_any in H by exact Hd.
  apply Ok_inj in H. split; [|exists (mid ts h k); split; [reflexivity|exact H]].
  unfold calculate_main_loop_timeout in H. apply pair_equal_spec in H as [<- _].
  split; [exact Hne|]. exists ci. eexists. split; [reflexivity|]. split; [now apply timers_filter|split; assumption].
Qed.
Lemma hold_over f evs i ch extra more k' t k1 d s : holding k evs i ch extra more k' ->
  (last_time evs + c_chord_hold (k_cfg k) <= t)%Z -> nothing_due k (last_time evs) ->
  free_slot k s -> unheld k (slot_code s) -> has_room k ->
  process_event (S f) k' 0%N false t = Ok (k1, d) -> fires k evs s ch i (last_time evs) (extra ++ more) t k1.
Proof.
  intros [Hne [ci [ts [-> [T [N0 Hl]]]]]] Ht Hd Hs Hu Hr H. cbn [process_event] in H. rewrite process_event_plan in H.
  set (h := mkCh (evs ++ more) (Some (i, ci)) i (last_time evs) CsHold) in *.
  change (set_k_timeouts ts (set_k_chord h k)) with (mid ts h k) in *.
  bstep H r1 E1. destruct r1 as [k3 b3].
  unfold chord_plan in E1. cbn [N.eqb negb andb] in E1. change (h_state (k_chord (mid ts h k))) with CsHold in E1.
  change (h_last (k_chord (mid ts h k))) with (last_time evs) in E1.
  change (c_chord_hold (k_cfg (mid ts h k))) with (c_chord_hold (k_cfg k)) in E1.
  destruct (Z.leb_spec (c_chord_hold (k_cfg k)) (t - last_time evs)) as [_|X]; [|lia].
  destruct (fire_spec f ts h evs i ci ch (extra ++ more) t k3 b3 s) as [F1 F2]; auto.
  - change (h_queue h) with (evs ++ more). apply longest_length in Hl as [L1 L2].
    rewrite skipn_app, L1. replace (length (ch_keys ch) - length evs) with 0 by lia. reflexivity.
  - subst b3. apply Ok_inj in H. rewrite H in F2. exact F2.
Qed.
Lemma hold_event f evs i ch extra more k' e k1 d : holding k evs i ch extra more k' -> press e \/ (release e /\ loose k (ev_code e)) ->
  process_event (S f) k' (ev_code e) (ev_pressed e) (ev_time e) = Ok (k1, d) ->
  (beside k ch e -> holding k evs i ch extra (more ++ [e]) k1
     /\ exists k2, k_timeouts k2 = k_timeouts k' /\ calculate_main_loop_timeout k2 (ev_time e) = (k1, d))
  /\ (~ beside k ch e -> given_up k (evs ++ more) [e] (ev_time e) k1).
Proof.
  intros [Hne [ci [ts [-> [T [N0 Hl]]]]]] He H. cbn [process_event] in H. rewrite process_event_plan in H.
  set (h := mkCh (evs ++ more) (Some (i, ci)) i (last_time evs) CsHold) in *.
  change (set_k_timeouts ts (set_k_chord h k)) with (mid ts h k) in *.
  bstep H r1 E1. destruct r1 as [k3 b3].
  assert (Hc : ev_code e <> 0%N) by (destruct He as [[_ X]|[[_ X] _]]; exact X).
  assert (N1 : (if negb (ev_code e =? 0)%N && negb (ev_pressed e) then chord_of_key (k_achords (mid ts h k)) (ev_code e) 0 else None) = None).
  { change (k_achords (mid ts h k)) with (k_achords k). destruct He as [[X _]|[_ X]].
    - rewrite X, andb_false_r. reflexivity.
    - rewrite loose_none by exact X. destruct (_ && _); reflexivity. }
  unfold chord_plan in E1. rewrite N1 in E1. change (h_state (k_chord (mid ts h k))) with CsHold in E1.
  unfold enqueue_chord_event in E1. destruct (N.eqb_spec (ev_code e) 0) as [X|_]; [contradiction|].
  destruct (Nat.ltb _ _); [|discriminate]. cbn [bind] in E1.
  replace (mkKev (ev_code e) (ev_pressed e) (ev_time e)) with e in E1 by now destruct e.
  change (set_k_chord _ (mid ts h k)) with (mid ts (mkCh ((evs ++ more) ++ [e]) (Some (i, ci)) i (last_time evs) CsHold) k) in E1.
  set (h1 := mkCh ((evs ++ more) ++ [e]) (Some (i, ci)) i (last_time evs) CsHold) in *.
  assert (K : k3 = mid ts h1 k -> b3 = true -> holding k evs i ch extra (more ++ [e]) k1
     /\ exists k2, k_timeouts k2 = ts /\ calculate_main_loop_timeout k2 (ev_time e) = (k1, d)).
  { intros -> ->. apply Ok_inj in H. split; [|exists (mid ts h1 k); split; [reflexivity|exact H]].
    unfold calculate_main_loop_timeout in H. apply pair_equal_spec in H as [<- _].
    split; [exact Hne|]. exists ci. eexists. rewrite app_assoc. split; [reflexivity|]. split; [now apply timers_filter|split; assumption]. }
  destruct (ev_pressed e) eqn:Ep; cbn [negb] in E1.
  - cbn [bind run_plan] in E1. apply Ok_inj, pair_equal_spec in E1 as [E1 E2]. split.
    + intros _. apply K; auto.
    + intros X. elim X. left. split; auto.
  - destruct He as [[X _]|[_ Hlo]]; [congruence|].
    change (h_match (k_chord (mid ts h1 k))) with (Some (i, ci)) in E1. cbv beta iota in E1. rewrite bind_assoc in E1. bstep E1 ch' Ed.
    assert (ch' = ch).
    { unfold deref_match in Ed. destruct (_ && _); [|discriminate]. apply Ok_inj in Ed. subst ch'.
      apply nth_error_nth with (d := zero_chord) in N0. exact N0. }
    subst ch'. destruct (in_keys (ev_code e) (ch_keys ch)) eqn:Ek.
    + apply in_keys_spec in Ek. split; [intros [[X _]|[_ [_ X]]]; [congruence|contradiction]|]. intros _.
      destruct (abort_spec f ts h1 (evs ++ more) [e] (ev_time e) k3 b3) as [F1 F2]; auto.
      * now apply timers_app.
      * subst b3. apply Ok_inj in H. rewrite H in F2. exact F2.
    + cbn [bind run_plan] in E1. apply Ok_inj, pair_equal_spec in E1 as [E1 E2]. split.
      * intros _. apply K; auto.
      * intros X. elim X. right. split; [split; auto|]. split; auto. intros Y. apply in_keys_spec in Y. congruence.
Qed.
(* ---- a caller who follows the delays ---------------------------------------------------------- *)
Lemma nothing_due_le t t' : nothing_due k t' -> (t <= t')%Z -> nothing_due k t.
Proof. intros [[H|H] A] L; split; auto. right. lia. Qed.
Lemma poised_start : h_state (k_chord k) = CsInactive -> poised [] k.
Proof.
  intros H. left. split; [reflexivity|]. exists (k_timeouts k), (k_chord k). split; [now destruct k|]. split; [exact H|].
  intros t Ht. now left.
Qed.

Lemma ticks (P : kbd -> Prop) due e l r :
  (forall f k' t k1 d, P k' -> (t < due)%Z -> nothing_due k t -> process_event (S f) k' 0%N false t = Ok (k1, d) ->
    P k1 /\ exists k2, k_timeouts k2 = k_timeouts k' /\ calculate_main_loop_timeout k2 t = (k1, d)) ->
  (forall t, (t < due)%Z -> (t <= ev_time e)%Z -> nothing_due k t) ->
  forall k' d nx, driven k' d nx (e :: l) (Ok r) -> P k' -> alarm_set k' due d nx -> (0 <= nx)%Z ->
  exists k0 d0 nx0, P k0 /\ alarm_set k0 due d0 nx0
    /\ (((ev_time e < due)%Z /\ exists k1 d1, outcome k0 [e] (Ok (k1, d1)) /\ driven k1 d1 (ev_time e + d1) l (Ok r))
        \/ ((due <= ev_time e)%Z /\ exists k1 d1, outcome k0 [mkKev 0%N false due] (Ok (k1, d1))
             /\ driven k1 d1 (due + d1) (e :: l) (Ok r))).
Proof.
  intros HP Hn k' d nx H. remember (e :: l) as evs eqn:Ee. remember (Ok r) as r0 eqn:Er.
  induction H as [k' delay nx|k' delay nx e0 rest ka da r0 Hd Hu Ho Hr IH|k' delay nx e0 rest r0 Hd Hu Ho Hx
                 |k' delay nx e0 rest ka da r0 Hd Ho Hr IH|k' delay nx e0 rest r0 Hd Ho Hx]; intros S A H0.
  - discriminate Ee.
  - injection Ee as -> ->. subst r0. destruct A as [A0 [A1 [A2 A3]]]. pose proof (A3 _ A1) as Lw.
    destruct (Z.eq_dec nx due) as [E|E].
    + subst nx. exists k', delay, due. split; [exact S|]. split; [repeat split; auto|]. right. split; [exact Hu|]. eauto.
    + pose proof Ho as Ho1. apply outcome_one in Ho1 as [f Ho1]. cbn [ev_code ev_pressed ev_time] in Ho1.
      destruct (HP f k' nx ka da S) as [S1 [k2 [T2 C2]]]; [lia|apply Hn; lia|exact Ho1|].
      assert (A4 : alarm_set ka due da (nx + da)).
      { eapply alarm_of; [exact H0| |rewrite T2; exact A1|exact C2]. lia. }
      apply IH; auto. destruct A4 as [A4 _]. lia.
  - subst r0. elim (Hx r eq_refl).
  - injection Ee as -> ->. subst r0. exists k', delay, nx. split; [exact S|]. split; [exact A|]. left.
    destruct A as [A0 [A1 [A2 A3]]]. pose proof (A3 _ A1). split; [lia|]. eauto.
  - subst r0. elim (Hx r eq_refl).
Qed.

Lemma midway_tick f evs k' t k1 d : midway k evs k' -> (t < last_time evs + c_chord_interkey (k_cfg k))%Z ->
  nothing_due k t -> process_event (S f) k' 0%N false t = Ok (k1, d) ->
  midway k evs k1 /\ exists k2, k_timeouts k2 = k_timeouts k' /\ calculate_main_loop_timeout k2 t = (k1, d).
Proof.
  intros M Ht Hd H. destruct (tick_poised f evs k' t k1 d (or_intror M) Hd (fun _ => Ht) H) as [[[E _]|P] Q].
  - destruct M as [M _]. contradiction.
  - split; assumption.
Qed.

Lemma hopeful_head evs e more : hopeful k (evs ++ e :: more) -> begun k (evs ++ [e]).
Proof. intros H. apply (H (evs ++ [e]) more); [now rewrite <- app_assoc|destruct evs; discriminate]. Qed.

Let ik := c_chord_interkey (k_cfg k).
Lemma follow_app gap : forall a t b, follow gap t (a ++ b) -> a <> [] -> follow gap t a /\ follow gap (last_time a) b.
Proof.
  induction a as [|e a IH]; intros t b H Hn; [congruence|]. cbn [app] in H. inversion H as [|? ? ? H1 H2 H3]; subst.
  destruct a as [|e' a].
  - split; [exact (fo_next gap t e [] H1 H2 (fo_end _ _))|exact H3].
  - destruct (IH _ _ H3) as [I1 I2]; [discriminate|]. split; [now constructor|]. exact I2.
Qed.
Lemma follow_le gap : forall evs t, follow gap t evs -> (t <= last_time (mkKev 0%N false t :: evs))%Z /\ Forall press evs
  /\ forall e, In e evs -> (t <= ev_time e <= last_time evs)%Z.
Proof.
  induction evs as [|e evs IH]; intros t H.
  - split; [cbn; lia|]. split; [constructor|]. intros e [].
  - inversion H as [|? ? ? H1 H2 H3]; subst. destruct (IH _ H3) as [I1 [I2 I3]].
    assert (L : last_time (mkKev 0%N false t :: e :: evs) = last_time (e :: evs)) by reflexivity.
    assert (L2 : (ev_time e <= last_time (e :: evs))%Z).
    { destruct evs as [|e' evs]; [cbn; lia|]. specialize (I3 e' (or_introl eq_refl)).
      change (last_time (e :: e' :: evs)) with (last_time (e' :: evs)). lia. }
    rewrite L. split; [lia|]. split; [now constructor|]. intros x [<-|Hx]; [lia|].
    specialize (I3 x Hx). destruct evs as [|e' evs]; [destruct Hx|]. change (last_time (e :: e' :: evs)) with (last_time (e' :: evs)). lia.
Qed.
Lemma last_time_app a b : b <> [] -> last_time (a ++ b) = last_time b.
Proof.
  intros H. destruct b as [|e b] using rev_ind; [congruence|]. rewrite app_assoc. now rewrite !last_time_snoc.
Qed.

(* keys struck one after the other, each part of some chord *)
Lemma strokes r rest : forall more evs k' d nx, midway k evs k' -> Forall press evs ->
  alarm_set k' (last_time evs + ik) d nx -> (0 <= nx)%Z -> (0 <= last_time evs)%Z -> (0 < ik)%Z ->
  follow ik (last_time evs) more -> hopeful k (evs ++ more) ->
  (more <> [] -> nothing_due k (last_time more)) -> driven k' d nx (more ++ rest) (Ok r) ->
  exists k0 d0 nx0, midway k (evs ++ more) k0 /\ alarm_set k0 (last_time (evs ++ more) + ik) d0 nx0 /\ (0 <= nx0)%Z
    /\ driven k0 d0 nx0 rest (Ok r).
Proof.
  induction more as [|e more IH]; intros evs k' d nx M Hp A H0 Hl Hi F Hh Hn D.
  - exists k', d, nx. rewrite app_nil_r. auto.
  - pose proof (follow_le _ _ _ F) as [_ [Fp Fl]]. inversion F as [|? ? ? He Ht F1]; subst. cbn [app] in D.
    specialize (Hn ltac:(discriminate)).
    destruct (ticks (midway k evs) (last_time evs + ik) e (more ++ rest) r) with (k' := k') (d := d) (nx := nx)
      as [k0 [d0 [nx0 [M0 [A0 [[_ [k1 [d1 [O1 D1]]]]|[X _]]]]]]]; auto.
    + intros f k2 t k3 d3 M2 T2 N2 E2. eapply midway_tick; eauto.
    + intros t _ Ht2. eapply nothing_due_le; [exact Hn|]. specialize (Fl e (or_introl eq_refl)). lia.
    + apply outcome_one in O1 as [f O1]. destruct He as [He1 He2]. rewrite He1 in O1.
      destruct (stroke_on f evs k0 e k1 d1 (or_intror M0) Hp (conj He1 He2) O1) as [M1 A1];
        [eapply hopeful_head; eauto|lia|exact Hi|].
      destruct (IH (evs ++ [e]) k1 d1 (ev_time e + d1)%Z) as [kz [dz [nz [Z1 [Z2 [Z3 Z4]]]]]]; auto.
      * apply Forall_app. split; auto. constructor; [now split|constructor].
      * rewrite last_time_snoc. exact A1.
      * destruct A1 as [A1 _]. lia.
      * rewrite last_time_snoc. lia.
      * rewrite last_time_snoc. exact F1.
      * rewrite <- app_assoc. exact Hh.
      * intros Hm. destruct more as [|e2 more]; [congruence|]. exact Hn.
      * rewrite <- app_assoc in Z1, Z2. exists kz, dz, nz. auto.
    + lia.
Qed.

(* from the first key *)
Lemma attempt r evs rest : h_state (k_chord k) = CsInactive -> evs <> [] -> spaced ik evs -> (0 < ik)%Z -> hopeful k evs ->
  nothing_due k (last_time evs) -> driven k 0 0 (evs ++ rest) (Ok r) ->
  exists k0 d0 nx0, midway k evs k0 /\ alarm_set k0 (last_time evs + ik) d0 nx0 /\ (0 <= nx0)%Z
    /\ driven k0 d0 nx0 rest (Ok r).
Proof.
  intros Hc Hne Hs Hi Hh Hn D. destruct evs as [|e evs]; [congruence|]. destruct Hs as [He [H0 F]]. cbn [app] in D.
  inversion D as [|? ? ? ? ? ? ? ? Hx| |? ? ? ? ? k1 d1 ? _ O1 D1|? ? ? ? ? ? _ O1 X]; subst; try lia; [|elim (X _ eq_refl)].
  apply outcome_one in O1 as [f O1]. pose proof He as [He1 He2]. rewrite He1 in O1.
  destruct (stroke_on f [] k e k1 d1 (poised_start Hc) ltac:(constructor) He O1) as [M1 A1];
    [exact (hopeful_head [] e evs Hh)|exact H0|exact Hi|]. cbn [app] in M1.
  apply (strokes r rest evs [e] k1 d1 (ev_time e + d1)%Z); auto.
  - destruct A1 as [A1 _]. lia.
  - intros Hm. destruct evs as [|e2 evs]; [congruence|]. exact Hn.
Qed.

(* the next event comes in time *)
Lemma attempt_next r evs e rest : h_state (k_chord k) = CsInactive -> evs <> [] -> spaced ik evs -> (0 < ik)%Z ->
  hopeful k evs -> (last_time evs <= ev_time e < last_time evs + ik)%Z -> nothing_due k (ev_time e) ->
  driven k 0 0 (evs ++ e :: rest) (Ok r) ->
  exists k0 k1 d1, midway k evs k0 /\ outcome k0 [e] (Ok (k1, d1)) /\ driven k1 d1 (ev_time e + d1) rest (Ok r).
Proof.
  intros Hc Hne Hs Hi Hh Ht Hn D.
  destruct (attempt r evs (e :: rest)) as [k0 [d0 [nx0 [M [A [N0 D0]]]]]]; auto.
  { eapply nothing_due_le; [exact Hn|lia]. }
  destruct (ticks (midway k evs) (last_time evs + ik) e rest r) with (k' := k0) (d := d0) (nx := nx0)
      as [ka [da [nxa [M0 [A0 [[_ [k1 [d1 [O1 D1]]]]|[X _]]]]]]]; auto.
  - intros f k2 t k3 d3 M2 T2 N2 E2. eapply midway_tick; eauto.
  - intros t _ Ht2. eapply nothing_due_le; [exact Hn|lia].
  - exists ka, k1, d1. auto.
  - lia.
Qed.
(* ... or too late *)
Lemma attempt_late r evs e rest : h_state (k_chord k) = CsInactive -> evs <> [] -> spaced ik evs -> (0 < ik)%Z ->
  hopeful k evs -> (last_time evs + ik <= ev_time e)%Z -> nothing_due k (last_time evs + ik) ->
  driven k 0 0 (evs ++ e :: rest) (Ok r) ->
  exists k0 k1 d1, midway k evs k0 /\ outcome k0 [mkKev 0%N false (last_time evs + ik)] (Ok (k1, d1))
    /\ driven k1 d1 (last_time evs + ik + d1) (e :: rest) (Ok r).
Proof.
  intros Hc Hne Hs Hi Hh Ht Hn D.
  destruct (attempt r evs (e :: rest)) as [k0 [d0 [nx0 [M [A [N0 D0]]]]]]; auto.
  { eapply nothing_due_le; [exact Hn|lia]. }
  destruct (ticks (midway k evs) (last_time evs + ik) e rest r) with (k' := k0) (d := d0) (nx := nx0)
      as [ka [da [nxa [M0 [A0 [[X _]|[_ [k1 [d1 [O1 D1]]]]]]]]]]; auto.
  - intros f k2 t k3 d3 M2 T2 N2 E2. eapply midway_tick; eauto.
  - intros t Ht2 _. eapply nothing_due_le; [exact Hn|lia].
  - lia.
  - exists ka, k1, d1. auto.
Qed.
Lemma spaced_snoc p e : spaced ik (p ++ [e]) ->
  spaced ik p /\ press e /\ (0 <= ev_time e)%Z /\ Forall press p /\ (p <> [] -> (last_time p <= ev_time e < last_time p + ik)%Z).
Proof.
  intros H. destruct p as [|x p].
  - destruct H as [H1 [H2 _]]. split; [exact Logic.I|]. split; [exact H1|]. split; [exact H2|]. split; [constructor|congruence].
  - destruct H as [H1 [H2 H3]]. pose proof (follow_le _ _ _ H3) as [_ [F1 F2]]. apply Forall_app in F1 as [F1 F3].
    inversion F3 as [|? ? F4 _]; subst.
    assert (L : (0 <= ev_time e)%Z) by (specialize (F2 e ltac:(apply in_or_app; right; now left)); lia).
    destruct p as [|y p].
    + cbn [app] in H3. inversion H3 as [|? ? ? _ G _]; subst. split; [split; [exact H1|split; [exact H2|constructor]]|].
      split; [exact F4|]. split; [exact L|]. split; [constructor; auto|]. intros _. exact G.
    + apply follow_app in H3 as [G1 G2]; [|discriminate]. inversion G2 as [|? ? ? _ G3 _]; subst.
      split; [split; [exact H1|split; [exact H2|exact G1]]|]. split; [exact F4|]. split; [exact L|].
      split; [constructor; auto|]. intros _. exact G3.
Qed.
(* a key struck in time *)
Lemma arrive r p e rest : h_state (k_chord k) = CsInactive -> spaced ik (p ++ [e]) -> (0 < ik)%Z -> hopeful k p ->
  nothing_due k (ev_time e) -> driven k 0 0 (p ++ e :: rest) (Ok r) ->
  exists k0 k1 d1, poised p k0 /\ outcome k0 [e] (Ok (k1, d1)) /\ driven k1 d1 (ev_time e + d1) rest (Ok r).
Proof.
  intros Hc Hs Hi Hh Hn D. apply spaced_snoc in Hs as [S1 [S2 [S3 [S4 S5]]]].
  destruct p as [|x p0] eqn:Ep.
  - cbn [app] in D.
    inversion D as [|? ? ? ? ? ? ? ? Hx| |? ? ? ? ? k1 d1 ? _ O1 D1|? ? ? ? ? ? _ O1 X]; subst; try lia; [|elim (X _ eq_refl)].
    exists k, k1, d1. split; [now apply poised_start|]. split; [exact O1|exact D1].
  - rewrite <- Ep in *. assert (Hne : p <> []) by (rewrite Ep; discriminate).
    destruct (attempt_next r p e rest) as [k0 [k1 [d1 [M [O D1]]]]]; auto. exists k0, k1, d1. split; [now right|]. auto.
Qed.

(* ---- a chord that must be held ---------------------------------------------------------------- *)
Let hd := c_chord_hold (k_cfg k).
Lemma hold_reached r evs i ch extra since e rest : h_state (k_chord k) = CsInactive -> evs <> [] -> spaced ik evs -> (0 < ik)%Z ->
  awaits_hold k evs i ch extra since -> (since <= ev_time e)%Z -> nothing_due k since ->
  driven k 0 0 (evs ++ e :: rest) (Ok r) ->
  exists k0 d0 nx0, holding k evs i ch extra [] k0 /\ alarm_set k0 (last_time evs + hd) d0 nx0 /\ (0 <= nx0)%Z
    /\ driven k0 d0 nx0 (e :: rest) (Ok r).
Proof.
  intros Hc Hne Hs Hi Ha Ht Hn D. destruct Ha as [[p [x [-> [A1 [A2 [A3 [-> [A5 ->]]]]]]]]|[A1 [A2 [A3 ->]]]].
  - rewrite <- app_assoc in D. cbn [app] in D. pose proof (spaced_snoc _ _ Hs) as [S1 [S2 [S3 [S4 S5]]]].
    destruct (arrive r p x (e :: rest)) as [k0 [k1 [d1 [P [O D1]]]]]; auto.
    apply outcome_one in O as [f O]. pose proof S2 as [S6 S7]. rewrite S6 in O.
    destruct (stroke_holds f p k0 x k1 d1 P S4 S2 O i ch A2 A3 S3 A5) as [B1 B2].
    exists k1, d1, (ev_time x + d1)%Z. rewrite last_time_snoc. split; [exact B1|]. split; [exact B2|].
    split; [|exact D1]. destruct B2 as [B2 _]. lia.
  - destruct (attempt_late r evs e rest) as [k0 [k1 [d1 [M [O D1]]]]]; auto.
    assert (H0 : (0 <= last_time evs + ik)%Z).
    { destruct (exists_last Hne) as [l [x E]]. rewrite E in Hs. apply spaced_snoc in Hs. rewrite E, last_time_snoc. lia. }
    apply outcome_one in O as [f O]. cbn [ev_code ev_pressed ev_time] in O.
    destruct (late_holds f evs k0 k1 d1 i ch extra M A2 A3 H0 O) as [B1 B2].
    exists k1, d1, (last_time evs + ik + d1)%Z. split; [exact B1|]. split; [exact B2|]. split; [|exact D1].
    destruct B2 as [B2 _]. lia.
Qed.
Lemma holding_tick evs i ch extra more f k' t k1 d : holding k evs i ch extra more k' -> (t < last_time evs + hd)%Z ->
  nothing_due k t -> process_event (S f) k' 0%N false t = Ok (k1, d) ->
  holding k evs i ch extra more k1 /\ exists k2, k_timeouts k2 = k_timeouts k' /\ calculate_main_loop_timeout k2 t = (k1, d).
Proof. intros H Ht Hn E. eapply hold_tick; eauto. Qed.
Lemma held_on r rest evs i ch extra : forall ds more k' d nx, holding k evs i ch extra more k' ->
  alarm_set k' (last_time evs + hd) d nx -> (0 <= nx)%Z ->
  Forall (fun e => beside k ch e /\ (0 <= ev_time e < last_time evs + hd)%Z /\ nothing_due k (ev_time e)) ds ->
  driven k' d nx (ds ++ rest) (Ok r) ->
  exists k0 d0 nx0, holding k evs i ch extra (more ++ ds) k0 /\ alarm_set k0 (last_time evs + hd) d0 nx0 /\ (0 <= nx0)%Z
    /\ driven k0 d0 nx0 rest (Ok r).
Proof.
  induction ds as [|e ds IH]; intros more k' d nx M A H0 F D.
  - exists k', d, nx. rewrite app_nil_r. auto.
  - inversion F as [|? ? [F1 [F2 F3]] F4]; subst. cbn [app] in D.
    destruct (ticks (holding k evs i ch extra more) (last_time evs + hd) e (ds ++ rest) r) with (k' := k') (d := d) (nx := nx)
      as [k0 [d0 [nx0 [M0 [A0 [[_ [k1 [d1 [O1 D1]]]]|[X _]]]]]]]; auto.
    + intros f k2 t k3 d3 M2 T2 N2 E2. eapply holding_tick; eauto.
    + intros t _ Ht2. eapply nothing_due_le; [exact F3|lia].
    + apply outcome_one in O1 as [f O1].
      assert (He : press e \/ release e /\ loose k (ev_code e)) by (destruct F1 as [F1|[F1 [F5 _]]]; auto).
      destruct (hold_event f evs i ch extra more k0 e k1 d1 M0 He O1) as [G _]. destruct (G F1) as [G1 [k2 [G2 G3]]].
      assert (A1 : alarm_set k1 (last_time evs + hd) d1 (ev_time e + d1)).
      { eapply alarm_of; [apply F2|apply F2| |exact G3]. rewrite G2. apply A0. }
      destruct (IH (more ++ [e]) k1 d1 (ev_time e + d1)%Z) as [kz [dz [nz [Z1 [Z2 [Z3 Z4]]]]]]; auto.
      * destruct A1 as [A1 _]. lia.
      * rewrite <- app_assoc in Z1. exists kz, dz, nz. auto.
    + lia.
Qed.
Lemma held_until r rest evs i ch extra since ds e : h_state (k_chord k) = CsInactive -> evs <> [] -> spaced ik evs -> (0 < ik)%Z ->
  awaits_hold k evs i ch extra since -> nothing_due k since ->
  Forall (fun e => beside k ch e /\ (0 <= ev_time e < last_time evs + hd)%Z /\ (since <= ev_time e)%Z /\ nothing_due k (ev_time e)) ds ->
  (since <= ev_time e)%Z ->
  driven k 0 0 (evs ++ ds ++ e :: rest) (Ok r) ->
  exists k0 d0 nx0, holding k evs i ch extra ds k0 /\ alarm_set k0 (last_time evs + hd) d0 nx0 /\ (0 <= nx0)%Z
    /\ driven k0 d0 nx0 (e :: rest) (Ok r).
Proof.
  intros Hc Hne Hs Hi Ha Hn F Ht D.
  assert (X : exists x l, ds ++ e :: rest = x :: l /\ (since <= ev_time x)%Z).
  { destruct ds as [|x ds]; [exists e, rest; auto|]. exists x, (ds ++ e :: rest). split; [reflexivity|].
    inversion F as [|? ? [_ [_ [G _]]] _]; subst. exact G. }
  destruct X as [x [l [X1 X2]]]. rewrite X1 in D.
  destruct (hold_reached r evs i ch extra since x l) as [k0 [d0 [nx0 [M [A [H0 D0]]]]]]; auto.
  rewrite <- X1 in D0. apply (held_on r (e :: rest) evs i ch extra ds [] k0 d0 nx0); auto.
  eapply Forall_impl; [|exact F]. intros y [Y1 [Y2 [_ Y3]]]. auto.
Qed.
Lemma held_next r rest evs i ch extra since ds e : h_state (k_chord k) = CsInactive -> evs <> [] -> spaced ik evs -> (0 < ik)%Z ->
  awaits_hold k evs i ch extra since -> nothing_due k since ->
  Forall (fun e => beside k ch e /\ (0 <= ev_time e < last_time evs + hd)%Z /\ (since <= ev_time e)%Z /\ nothing_due k (ev_time e)) ds ->
  (since <= ev_time e < last_time evs + hd)%Z -> nothing_due k (ev_time e) ->
  driven k 0 0 (evs ++ ds ++ e :: rest) (Ok r) ->
  exists k0 k1 d1, holding k evs i ch extra ds k0 /\ outcome k0 [e] (Ok (k1, d1)) /\ driven k1 d1 (ev_time e + d1) rest (Ok r).
Proof.
  intros Hc Hne Hs Hi Ha Hn F Ht Hn2 D.
  destruct (held_until r rest evs i ch extra since ds e) as [k0 [d0 [nx0 [M [A [H0 D0]]]]]]; auto; [lia|].
  destruct (ticks (holding k evs i ch extra ds) (last_time evs + hd) e rest r) with (k' := k0) (d := d0) (nx := nx0)
      as [ka [da [nxa [M0 [A0 [[_ [k1 [d1 [O1 D1]]]]|[X _]]]]]]]; auto.
  - intros f k2 t k3 d3 M2 T2 N2 E2. eapply holding_tick; eauto.
  - intros t _ Ht2. eapply nothing_due_le; [exact Hn2|lia].
  - exists ka, k1, d1. auto.
  - lia.
Qed.
Lemma held_late r rest evs i ch extra since ds e : h_state (k_chord k) = CsInactive -> evs <> [] -> spaced ik evs -> (0 < ik)%Z ->
  awaits_hold k evs i ch extra since -> nothing_due k since ->
  Forall (fun e => beside k ch e /\ (0 <= ev_time e < last_time evs + hd)%Z /\ (since <= ev_time e)%Z /\ nothing_due k (ev_time e)) ds ->
  (since <= ev_time e)%Z -> (last_time evs + hd <= ev_time e)%Z -> nothing_due k (last_time evs + hd) ->
  driven k 0 0 (evs ++ ds ++ e :: rest) (Ok r) ->
  exists k0 k1 d1, holding k evs i ch extra ds k0 /\ outcome k0 [mkKev 0%N false (last_time evs + hd)] (Ok (k1, d1))
    /\ driven k1 d1 (last_time evs + hd + d1) (e :: rest) (Ok r).
Proof.
  intros Hc Hne Hs Hi Ha Hn F Ht1 Ht Hn2 D.
  destruct (held_until r rest evs i ch extra since ds e) as [k0 [d0 [nx0 [M [A [H0 D0]]]]]]; auto.
  destruct (ticks (holding k evs i ch extra ds) (last_time evs + hd) e rest r) with (k' := k0) (d := d0) (nx := nx0)
      as [ka [da [nxa [M0 [A0 [[X _]|[_ [k1 [d1 [O1 D1]]]]]]]]]]; auto.
  - intros f k2 t k3 d3 M2 T2 N2 E2. eapply holding_tick; eauto.
  - intros t Ht2 _. eapply nothing_due_le; [exact Hn2|lia].
  - lia.
  - exists ka, k1, d1. auto.
Qed.
End Attempt.
