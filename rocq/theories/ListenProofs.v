(* Messages to listeners. *)
From Verif Require Import Base Lib Types Keys MacroExec Kbd Str MacroParse Config Match Outside Steps Hist Ini ParseFrame SpecHist WfHist SpecMods Device Daemon SpecDaemon DaemonProofs EntryProofs.
Local Open Scope N_scope.

Definition cnt (con : nat) (l : list nat) : nat := count_occ Nat.eq_dec l con.
Lemma cnt_app con a b : cnt con (a ++ b) = (cnt con a + cnt con b)%nat.
Proof. apply count_occ_app. Qed.
Lemma cnt_one con c : cnt con [c] = if Nat.eqb c con then 1%nat else 0%nat.
Proof.
  unfold cnt. cbn. destruct (Nat.eq_dec c con) as [->|N]; [now rewrite Nat.eqb_refl|].
  destruct (Nat.eqb_spec c con); [contradiction|reflexivity].
Qed.
Lemma cnt_cons con c r : cnt con (c :: r) = ((if Nat.eqb c con then 1 else 0) + cnt con r)%nat.
Proof. change (c :: r) with ([c] ++ r). now rewrite cnt_app, cnt_one. Qed.
Lemma cnt_in con l : In con l <-> (0 < cnt con l)%nat.
Proof. unfold cnt. split; [intros; now apply count_occ_In|intros; now apply (count_occ_In Nat.eq_dec)]. Qed.

Lemma notify_spec wr con text ls : forall keep d, exists n, (n <= cnt con ls)%nat /\
  cnt con (d_lst (notify wr text ls keep d)) = (cnt con keep + n)%nat /\
  inbox con (d_out (notify wr text ls keep d)) = inbox con (d_out d) ++ repeat text n.
Proof.
  induction ls as [|c r IH]; cbn [notify]; intros keep d.
  - exists 0%nat. cbn [d_lst set_d_lst d_out repeat]. rewrite app_nil_r. split; [auto|]. split; [lia|reflexivity].
  - unfold write_msg. destruct (wr (d_nw d)) eqn:Ew.
    + match goal with |- context [notify wr text r (keep ++ [c]) ?e] => set (d1 := e) end.
      destruct (IH (keep ++ [c]) d1) as (n & A & B & C). rewrite cnt_app, cnt_one in B. rewrite cnt_cons, B, C.
      unfold d1, vemit. cbn [d_out set_d_nw set_d_out inbox]. destruct (Nat.eqb c con).
      * exists (S n). split; [lia|]. split; [lia|]. cbn [repeat]. now rewrite <- app_assoc.
      * exists n. split; [lia|]. split; [lia|reflexivity].
    + match goal with |- context [notify wr text r keep ?e] => set (d1 := e) end.
      destruct (IH keep d1) as (n & A & B & C). exists n. rewrite cnt_cons, B, C.
      unfold d1, vemit. cbn [d_out set_d_nw set_d_out inbox]. split; [lia|]. split; reflexivity.
Qed.

(* nothing for the listeners *)
Definition silent (con : nat) (d d' : dstate) : Prop := d_lst d' = d_lst d /\ inbox con (d_out d') = inbox con (d_out d).
Lemma silent_trans con a b c : silent con a b -> silent con b c -> silent con a c.
Proof. unfold silent. intuition congruence. Qed.
Lemma silent_emit con v d : match v with VMsg _ _ _ => False | _ => True end -> silent con d (vemit v d).
Proof. intros H. split; [reflexivity|]. destruct v; try reflexivity. destruct H. Qed.
Lemma leds_silent con p ind devs : forall i d, silent con d (set_leds p ind devs i d).
Proof.
  induction devs as [|dv r IH]; cbn [set_leds]; intros i d; [split; reflexivity|].
  eapply silent_trans; [|apply IH]. destruct (dv_data dv) as [q|]; [|split; reflexivity].
  destruct (kptr_eqb q p); [now apply silent_emit|split; reflexivity].
Qed.
Lemma dsend_silent con c s d : silent con d (dsend_key c s d).
Proof.
  unfold dsend_key. repeat match goal with |- context [if ?b then _ else _] => destruct b end; split; reflexivity.
Qed.

(* con keeps its place or loses it; while it keeps it, it is told what is announced *)
Definition told (con : nat) (texts : list str) (d d' : dstate) : Prop :=
  (cnt con (d_lst d') <= cnt con (d_lst d))%nat /\
  ((cnt con (d_lst d) <= 1)%nat -> In con (d_lst d') -> inbox con (d_out d') = inbox con (d_out d) ++ texts).
Lemma told_silent con d d' : silent con d d' -> told con [] d d'.
Proof. intros [A B]. unfold told. rewrite A, B, app_nil_r. auto. Qed.
Lemma told_trans con s t a b c : told con s a b -> told con t b c -> told con (s ++ t) a c.
Proof.
  intros [A B] [C D]. split; [exact (Nat.le_trans _ _ _ C A)|]. intros H Hi. assert (Hb : In con (d_lst b)) by (rewrite cnt_in in *; lia).
  rewrite D, B by (auto; lia). now rewrite app_assoc.
Qed.

Lemma layer_told wr con p c i on ind d d' : on_layer_change wr p c i on ind d = Ok d' ->
  (length (lname c i) <= 63)%nat -> told con (announce c (OLayer i on ind)) d d'.
Proof.
  unfold on_layer_change. intros H Hs.
  match type of H with (match d_lst ?e with _ => _ end = _) => set (d1 := e) in * end.
  assert (S1 : silent con d d1) by (unfold d1; destruct (c_indicator c); [apply leds_silent|split; reflexivity]).
  clearbody d1. destruct (d_lst d1) as [|x ls] eqn:El.
  - apply Ok_inj in H. subst. destruct S1 as [A B]. split; [rewrite <- A; lia|]. rewrite El. intros _ [].
  - unfold buf_text in H.
    match type of H with context [length ?s] => assert (L : Nat.ltb (length s) 66 = true) end.
    { apply Nat.ltb_lt. cbn [length]. rewrite app_length. cbn [length]. lia. }
    rewrite L in H. cbn [bind] in H. apply Ok_inj in H. subst d'.
    replace (announce c (OLayer i on ind)) with ([] ++ announce c (OLayer i on ind)) by reflexivity.
    eapply told_trans; [apply told_silent; exact S1|].
    destruct (notify_spec wr con ((if is_layout (ltypei c i) then 47 else if on then 43 else 45) :: lname c i ++ [10]) (x :: ls) [] d1)
      as (n & A & B & C). unfold told. rewrite El, C. change (cnt con []) with 0%nat in B. rewrite B. split; [exact A|].
    intros H1 H2. rewrite cnt_in, B in H2.
    assert (n = 1%nat) by lia. subst n. reflexivity.
Qed.
Lemma deliver_told wr con p c : (forall i, (length (lname c i) <= 63)%nat) -> forall os d d', deliver_all wr p c os d = Ok d' ->
  told con (flat_map (announce c) os) d d'.
Proof.
  intros Hs. induction os as [|o r IH]; cbn [deliver_all flat_map]; intros d d' H.
  - apply Ok_inj in H. subst. apply told_silent. split; reflexivity.
  - destruct (deliver wr p c d o) as [d1| | |] eqn:E; cbn [bind] in H; try discriminate H.
    eapply told_trans; [|apply IH; exact H]. unfold deliver in E. destruct o.
    + apply Ok_inj in E. subst. apply told_silent, dsend_silent.
    + eapply layer_told; eauto.
    + apply Ok_inj in E. subst. apply told_silent. now apply silent_emit.
    + apply Ok_inj in E. subst. apply told_silent. now apply silent_emit.
Qed.

(* ---- names ---------------------------------------------------------------------------- *)
Definition same_names (c c' : config) : Prop :=
  length (c_layers c') = length (c_layers c) /\
  forall i, lname c' i = lname c i /\ is_layout (ltypei c' i) = is_layout (ltypei c i).
Lemma same_names_refl c : same_names c c.
Proof. split; auto. Qed.
Lemma same_names_trans a b c : same_names a b -> same_names b c -> same_names a c.
Proof. intros [A B] [C D]. split; [congruence|]. intros i. destruct (B i), (D i). split; congruence. Qed.
Lemma same_names_sym a b : same_names a b -> same_names b a.
Proof. intros [A B]. split; [congruence|]. intros i. destruct (B i). split; congruence. Qed.
Lemma add_entry_names c exp c' ok : config_add_entry c exp = Ok (c', ok) -> same_names c c'.
Proof.
  rewrite add_entry_unfold. intros H.
  destruct (N.leb _ _); [apply Ok_inj in H; apply pair_equal_spec in H as [<- _]; apply same_names_refl|].
  destruct (split_entry exp) as [ln s]. destruct (Ini.parse_kvp s) as [key val].
  destruct (config_get_layer_index c ln) as [idx|]; [|apply Ok_inj in H; apply pair_equal_spec in H as [<- _]; apply same_names_refl].
  match type of H with bind ?x _ = _ => destruct x as [[c1 d]| | |] eqn:E end; cbn [bind] in H; try discriminate H.
  assert (Hc : c_layers c1 = c_layers c).
  { destruct val as [v|]; [|apply Ok_inj in E; apply pair_equal_spec in E as [<- _]; reflexivity].
    apply parse_desc_grows in E. now apply grows_layers in E. }
  assert (S1 : same_names c c1) by (split; [now rewrite Hc|]; intros i; unfold lname, ltypei; now rewrite Hc).
  destruct d as [d|]; [|apply Ok_inj in H; apply pair_equal_spec in H as [<- _]; exact S1].
  destruct (set_layer_entry _ _ _ _) as [l|] eqn:El; apply Ok_inj in H; apply pair_equal_spec in H as [<- _]; [|exact S1].
  eapply same_names_trans; [exact S1|].
  assert (Ht : ly_type l = ly_type (nth idx (c_layers c1) zero_layer) /\ ly_name l = ly_name (nth idx (c_layers c1) zero_layer)).
  { unfold set_layer_entry in El.
    repeat match type of El with
    | (if ?b then _ else _) = _ => destruct b
    | match ?b with _ => _ end = _ => destruct b
    end; try discriminate El; injection El as <-; split; reflexivity. }
  destruct Ht as [T1 T2]. split; cbn [c_layers set_c_layers]; [apply upd_length|].
  intros i. unfold lname, ltypei. cbn [c_layers set_c_layers]. rewrite nth_upd.
  destruct (Nat.eqb_spec idx i) as [->|]; cbn [andb]; [|auto]. destruct (Nat.ltb _ _); cbn [andb]; [|auto]. now rewrite T1, T2.
Qed.
Definition origin (k : kbd) : Prop := same_names (k_orig k) (k_cfg k).
Lemma eval_names k exp k' ok : kbd_eval k exp = Ok (k', ok) -> origin k ->
  origin k' /\ same_names (k_cfg k) (k_cfg k') /\ k_out k' = k_out k.
Proof.
  unfold kbd_eval, origin. intros H O. destruct (str_eqb _ _).
  - apply Ok_inj in H. apply pair_equal_spec in H as [<- _]. cbn [k_cfg k_orig k_out set_k_cfg].
    split; [apply same_names_refl|]. split; [now apply same_names_sym|reflexivity].
  - destruct (config_add_entry _ _) as [[c1 o1]| | |] eqn:E; cbn [bind] in H; try discriminate H.
    apply Ok_inj in H. apply pair_equal_spec in H as [<- _]. cbn [k_cfg k_orig k_out set_k_cfg].
    apply add_entry_names in E. split; [eapply same_names_trans; eauto|]. split; [exact E|reflexivity].
Qed.
Lemma reach_origin G c k : reach G c k -> origin k.
Proof.
  induction 1 as [clk Hk Hg|k fuel evs k' t Hr IH H|k exp k' ok Hr IH H Hg|k k' Hr IH H].
  - apply same_names_refl.
  - apply kbd_process_events_steps, steps_cfg in H as [H1 H2]. unfold origin. now rewrite H1, H2.
  - now apply eval_names in H.
  - destruct H; exact IH.
Qed.

(* ---- the engine's trace only grows --------------------------------------------------------- *)
Lemma prim_out k k' : prim k k' -> exists o, k_out k' = o ++ k_out k.
Proof.
  intros H. destruct H as [k k' H| | | | |k code i k' H|k i k' H| | |].
  - destruct H as (_ & _ & _ & -> & _). now exists [].
  - unfold send_key. repeat match goal with |- context [if ?b then _ else _] => destruct b end;
    cbn [k_out emit set_k_out set_k_ks set_k_last_out]; ((now exists []) || (now eexists [_])).
  - now eexists [_].
  - cbn [k_out emits set_k_out]. eauto.
  - now eexists [_].
  - unfold activate_layer in H. bauto H; cbn [k_out emit set_k_out set_k_cache set_k_clock set_lsi set_k_ls];
      ((now exists []) || (now eexists [_])).
  - unfold deactivate_layer in H. bauto H; cbn [k_out emit set_k_out set_k_cache set_k_clock set_lsi set_k_ls];
      ((now exists []) || (now eexists [_])).
  - unfold drop_layout. repeat match goal with |- context [if ?b then _ else _] => destruct b end;
      cbn; ((now exists []) || (now eexists [_])).
  - now eexists [_].
  - now eexists [_].
Qed.
Lemma steps_out k k' : steps k k' -> exists o, k_out k' = o ++ k_out k.
Proof.
  induction 1 as [|k k1 k2 H _ [o IH]]; [now exists []|]. apply prim_out in H as [o1 H].
  exists (o ++ o1). rewrite IH, H. apply app_assoc.
Qed.

(* ---- one call of the handler ------------------------------------------------------------------ *)
Definition named (d : dstate) : Prop := short_names (d_ents d) /\ Forall origin (d_ents d).
Definition grown (log : list (nat * oev)) (ks ks' : list kbd) : Prop :=
  length ks' = length ks /\
  forall j k k', nth_error ks j = Some k -> nth_error ks' j = Some k' ->
    k_out k' = rev (effects j log) ++ k_out k /\ same_names (k_cfg k) (k_cfg k').
Definition LR (con : nat) (d d' : dstate) : Prop :=
  named d -> named d' /\ exists log, told con (texts_of (d_ents d) log) d d' /\ grown log (d_ents d) (d_ents d').

Lemma effects_app j a b : effects j (a ++ b) = effects j a ++ effects j b.
Proof. unfold effects. now rewrite filter_app, map_app. Qed.
Lemma texts_app ks a b : texts_of ks (a ++ b) = texts_of ks a ++ texts_of ks b.
Proof. unfold texts_of. apply flat_map_app. Qed.
Lemma announce_same c c' o : same_names c c' -> announce c' o = announce c o.
Proof. intros [_ H]. destruct o as [|i on ind| |]; auto. cbn [announce]. destruct (H i) as [-> ->]. reflexivity. Qed.
Lemma texts_same log ks ks' l : grown log ks ks' -> texts_of ks' l = texts_of ks l.
Proof.
  intros [A B]. unfold texts_of. apply flat_map_ext. intros [j o]. cbn [fst snd].
  destruct (nth_error ks j) as [k|] eqn:E1.
  - destruct (nth_error ks' j) as [k'|] eqn:E2.
    + destruct (B _ _ _ E1 E2) as [_ C]. now apply announce_same.
    + apply nth_error_None in E2. assert (j < length ks)%nat by (apply nth_error_Some; congruence). lia.
  - apply nth_error_None in E1. assert (E2 : nth_error ks' j = None) by (apply nth_error_None; lia). now rewrite E2.
Qed.
Lemma grown_trans a b ks1 ks2 ks3 : grown a ks1 ks2 -> grown b ks2 ks3 -> grown (a ++ b) ks1 ks3.
Proof.
  intros [A B] [C D]. split; [congruence|]. intros j k k' H1 H3.
  destruct (nth_error ks2 j) as [k2|] eqn:H2.
  - destruct (B _ _ _ H1 H2) as [E F], (D _ _ _ H2 H3) as [G H]. rewrite G, E, effects_app, rev_app_distr, app_assoc.
    split; [reflexivity|]. eapply same_names_trans; eauto.
  - apply nth_error_None in H2. assert (j < length ks1)%nat by (apply nth_error_Some; congruence). lia.
Qed.
Lemma grown_refl ks : grown [] ks ks.
Proof. split; [reflexivity|]. intros j k k' A B. rewrite A in B. injection B as <-. split; [reflexivity|apply same_names_refl]. Qed.
Lemma LR_trans con a b c : LR con a b -> LR con b c -> LR con a c.
Proof.
  intros H1 H2 Pa. destruct (H1 Pa) as (Pb & l1 & T1 & G1), (H2 Pb) as (Pc & l2 & T2 & G2).
  split; [exact Pc|]. exists (l1 ++ l2). split; [|eapply grown_trans; eauto].
  rewrite texts_app. eapply told_trans; [exact T1|]. now rewrite <- (texts_same _ _ _ l2 G1).
Qed.
Lemma LR_silent con d d' : d_ents d' = d_ents d -> silent con d d' -> LR con d d'.
Proof.
  intros A S [P1 P2]. unfold LR, named. rewrite A. split; [now split|]. exists []. split; [now apply told_silent|apply grown_refl].
Qed.
Lemma nth_upd_error {A} n (x : A) l j : nth_error (upd n x l) j = if Nat.eqb n j && Nat.ltb n (length l) then Some x else nth_error l j.
Proof.
  revert n j. induction l as [|y l IH]; intros n j.
  - destruct n, j; cbn [upd nth_error length Nat.ltb Nat.leb]; rewrite andb_false_r; reflexivity.
  - destruct n as [|n], j as [|j]; cbn [upd nth_error]; try reflexivity. rewrite IH. reflexivity.
Qed.

(* replacing one keyboard *)
Lemma LR_store con p k k1 d d1 os : deref d p = Ok k -> d_ents d1 = d_ents d ->
  k_out k1 = rev os ++ k_out k -> k_cfg k1 = k_cfg k -> k_orig k1 = k_orig k ->
  (named d -> told con (flat_map (announce (k_cfg k)) os) d d1) -> LR con d (store p k1 d1).
Proof.
  intros Hd He Ho Hc Hg Ht [P1 P2]. specialize (Ht (conj P1 P2)).
  assert (Hn : nth_error (d_ents d) (snd p) = Some k).
  { unfold deref in Hd. destruct (Nat.eqb _ _); [|discriminate Hd]. destruct (nth_error _ _); [|discriminate Hd].
    apply Ok_inj in Hd. now subst. }
  assert (Hi : In k (d_ents d)) by (eapply nth_error_In; eauto).
  split.
  - split; cbn [store d_ents set_d_ents]; rewrite He.
    + intros x i Hx. apply In_upd in Hx as [->|Hx]; [rewrite Hc|]; now apply P1.
    + apply Forall_upd; [|exact P2]. unfold origin. rewrite Hc, Hg. rewrite Forall_forall in P2. now apply P2.
  - exists (map (fun o => (snd p, o)) os). cbn [store d_ents set_d_ents]. rewrite He. split.
    + assert (X : texts_of (d_ents d) (map (fun o => (snd p, o)) os) = flat_map (announce (k_cfg k)) os).
      { unfold texts_of. clear - Hn. induction os as [|o r IH]; cbn [map flat_map fst snd]; [reflexivity|]. now rewrite Hn, IH. }
      rewrite X. exact Ht.
    + split; [now rewrite upd_length|]. intros j x x' Hx Hx'. rewrite nth_upd_error in Hx'.
      destruct (Nat.eqb_spec (snd p) j) as [<-|Ne]; cbn [andb] in Hx'.
      * assert (Hl : Nat.ltb (snd p) (length (d_ents d)) = true).
        { apply Nat.ltb_lt, nth_error_Some. congruence. }
        rewrite Hl in Hx'. injection Hx' as <-. assert (x = k) by congruence. subst x. split.
        { assert (X : effects (snd p) (map (fun o => (snd p, o)) os) = os); [|now rewrite X].
          unfold effects. clear. induction os as [|o r IH]; cbn [map filter fst snd]; [reflexivity|].
          rewrite Nat.eqb_refl. cbn [map snd]. now rewrite IH. }
        rewrite Hc. apply same_names_refl.
      * assert (x' = x) by congruence. subst x'. split; [|apply same_names_refl].
        assert (X : effects j (map (fun o => (snd p, o)) os) = []); [|now rewrite X].
        unfold effects. clear - Ne. induction os as [|o r IH]; cbn [map filter fst snd]; [reflexivity|].
        apply Nat.eqb_neq in Ne. rewrite Ne. exact IH.
Qed.
Lemma LR_run fuel wr con p ev d d' t : run_kbd fuel wr p ev d = Ok (d', t) -> LR con d d'.
Proof.
  intros H. apply run_inv in H as (k & k1 & d1 & E1 & E2 & E3 & ->).
  apply kbd_process_events_steps in E2. destruct (steps_cfg _ _ E2) as [Hc Hg]. destruct (steps_out _ _ E2) as [o Ho].
  cbn [k_out k_cfg k_orig set_k_clock] in *.
  assert (X : firstn (length (k_out k1) - length (k_out k)) (k_out k1) = o).
  { rewrite Ho, app_length, Nat.add_sub, firstn_app, Nat.sub_diag, firstn_all. cbn [firstn]. apply app_nil_r. }
  rewrite X in E3. destruct (deliver_ents _ _ _ _ _ _ E3) as (A & _). cbn [d_ents set_d_clock] in A.
  apply (LR_store con p k k1 d d1 (rev o) E1 A); auto.
  - now rewrite rev_involutive.
  - intros [P1 P2]. rewrite <- Hc.
    change (told con (flat_map (announce (k_cfg k1)) (rev o)) (set_d_clock (k_clock k1) d) d1).
    eapply deliver_told; [|exact E3]. intros i. rewrite Hc. apply P1. now apply deref_in in E1.
Qed.
Lemma LR_bind con exp d ks ok : eval_all (d_ents d) exp = Ok (ks, ok) -> LR con d (set_d_ents ks d).
Proof.
  intros H [P1 P2].
  assert (X : Forall origin ks /\ grown [] (d_ents d) ks).
  { revert ks ok H P2. clear. generalize (d_ents d) as l. induction l as [|k r IH]; cbn [eval_all]; intros ks ok H P2.
    - apply Ok_inj in H. apply pair_equal_spec in H as [<- _]. split; [constructor|apply grown_refl].
    - destruct (kbd_eval k exp) as [[k1 o1]| | |] eqn:E1; cbn [bind] in H; try discriminate H.
      destruct (eval_all r exp) as [[r1 o2]| | |] eqn:E2; cbn [bind] in H; try discriminate H.
      apply Ok_inj in H. apply pair_equal_spec in H as [<- _]. inversion P2 as [|? ? Ok1 P3]; subst.
      destruct (IH _ _ eq_refl P3) as [A [B C]]. apply eval_names in E1 as (D & E & F); [|exact Ok1].
      split; [now constructor|]. split; [cbn [length]; now rewrite B|].
      intros [|j] x x' Hx Hx'; cbn [nth_error] in Hx, Hx'.
      + injection Hx as <-. injection Hx' as <-. split; [exact F|exact E].
      + exact (C j x x' Hx Hx'). }
  destruct X as [A [B C]]. split.
  - split; cbn [d_ents set_d_ents]; [|exact A]. intros k' i Hk. apply In_nth_error in Hk as [j Hj].
    destruct (nth_error (d_ents d) j) as [k|] eqn:E.
    + destruct (C _ _ _ E Hj) as [_ [_ N]]. rewrite (proj1 (N i)). apply P1. eapply nth_error_In; eauto.
    + apply nth_error_None in E. assert (j < length ks)%nat by (apply nth_error_Some; congruence). lia.
  - exists []. split; [|split; [exact B|exact C]]. apply told_silent. split; reflexivity.
Qed.

(* another client *)
Lemma write_other wr con c text d : c <> con -> silent con d (fst (write_msg wr c text d)).
Proof.
  intros H. unfold write_msg, vemit. cbn [fst]. split; [reflexivity|]. cbn [d_out set_d_nw set_d_out inbox].
  destruct (wr (d_nw d)); [|reflexivity]. apply Nat.eqb_neq in H. now rewrite H.
Qed.
Lemma send_other wr con c k is : c <> con -> forall d, silent con d (fst (send_layers wr c k is d)).
Proof.
  intros Hc. induction is as [|i r IH]; cbn [send_layers]; intros d; [split; reflexivity|].
  destruct (andb _ _); [|apply IH]. pose proof (write_other wr con c (43 :: lname (k_cfg k) i ++ [10]) d Hc) as W.
  destruct (write_msg _ _ _ _) as [d1 [|]]; cbn [fst] in *; [|exact W]. eapply silent_trans; [exact W|apply IH].
Qed.
Lemma listener_other wr con c d d' : c <> con -> add_listener wr c d = Ok d' ->
  cnt con (d_lst d') = cnt con (d_lst d) /\ inbox con (d_out d') = inbox con (d_out d).
Proof.
  intros Hc H. unfold add_listener in H. destruct (Nat.eqb (length _) _).
  - apply Ok_inj in H. subst. split; [reflexivity|]. cbn [vemit d_out set_d_out inbox]. apply Nat.eqb_neq in Hc. now rewrite Hc.
  - assert (Z : forall e, cnt con (d_lst e ++ [c]) = cnt con (d_lst e)).
    { intros e. rewrite cnt_app, cnt_one. apply Nat.eqb_neq in Hc. rewrite Hc. lia. }
    destruct (d_active d) as [p|]; [|apply Ok_inj in H; subst; cbn [d_lst set_d_lst d_out]; split; [apply Z|reflexivity]].
    destruct (deref d p) as [k| | |]; cbn [bind] in H; try discriminate H.
    pose proof (write_other wr con c (47 :: lname (k_cfg k) (current_layout k) ++ [10]) d Hc) as W.
    destruct (write_msg _ _ _ _) as [d1 o1]; cbn [fst] in W.
    pose proof (send_other wr con c k (seq 1 (length (c_layers (k_cfg k)) - 1)) Hc d1) as V.
    destruct (send_layers _ _ _ _ _) as [d2 o2]; cbn [fst] in V. apply Ok_inj in H. subst.
    destruct (silent_trans _ _ _ _ W V) as [A B]. destruct o2; cbn [vemit d_lst set_d_lst d_out set_d_out inbox].
    + rewrite Z, A, B. auto.
    + rewrite A, B. auto.
Qed.

Lemma handler_told fuel wr con ev ts d d' t : connected con ev -> event_handler fuel wr ev ts d = Ok (d', t) -> LR con d d'.
Proof.
  intros Hok. apply (handler_rel fuel wr (LR con) (fun c => c <> con) True False);
    try (intros; apply LR_silent; [reflexivity|split; reflexivity]).
  - intros a b c. apply LR_trans.
  - intros v e H. apply LR_silent; [reflexivity|]. apply silent_emit. destruct v; auto.
  - intros c s e. apply LR_silent; [now destruct (dsend_ents c s e)|apply dsend_silent].
  - intros. eapply LR_run; eauto.
  - intros p k x y e H. eapply (LR_store con p k _ e e []); auto. intros _. apply told_silent. split; reflexivity.
  - intros c e e' Hc H [P1 P2].
    assert (A : same_ents e e').
    { revert H. apply listener_keeps; intros; try (repeat split; fail). eapply same_ents_trans; eauto. }
    destruct A as (A & _). apply (listener_other wr con) in H as [H1 H2]; [|exact Hc].
    unfold named. rewrite A. split; [now split|]. exists []. split; [|apply grown_refl].
    split; [now rewrite H1|]. intros _ _. cbn [texts_of flat_map]. now rewrite H2, app_nil_r.
  - intros exp e ks ok _ H. eapply LR_bind; eauto.
  - intros ? ? ? ? [].
  - destruct ev; auto.
Qed.
Lemma later_told fuel wr con d d' : later fuel wr (connected con) d d' -> LR con d d'.
Proof.
  induction 1 as [|d1 ev ts d2 t _ IH Hok H|d1 v _ IH].
  - apply LR_silent; [reflexivity|split; reflexivity].
  - eapply LR_trans; [exact IH|]. eapply handler_told; eauto.
  - eapply LR_trans; [exact IH|]. apply LR_silent; [reflexivity|split; reflexivity].
Qed.

(* ---- connection ---------------------------------------------------------------------------------- *)
Lemma send_layers_spec wr con k is : forall d d', send_layers wr con k is d = (d', true) ->
  d_lst d' = d_lst d /\
  inbox con (d_out d') = inbox con (d_out d) ++
    map (fun i => 43 :: lname (k_cfg k) i ++ [10]) (filter (fun i => active_layer k i && negb (is_layout (ltypei (k_cfg k) i))) is).
Proof.
  induction is as [|i r IH]; cbn [send_layers filter]; intros d d' H.
  - apply pair_equal_spec in H as [<- _]. cbn [map]. now rewrite app_nil_r.
  - change (negb (l_active (k_ls k i) =? 0)) with (active_layer k i) in H. destruct (andb _ _); [|now apply IH].
    unfold write_msg in H. destruct (wr (d_nw d)); [|discriminate H]. apply IH in H as [A B].
    split; [exact A|]. rewrite B. unfold vemit. cbn [d_out set_d_nw set_d_out inbox map]. rewrite Nat.eqb_refl, <- app_assoc. reflexivity.
Qed.
Lemma listener_told wr con d d' p k : add_listener wr con d = Ok d' -> ~ In con (d_lst d) -> In con (d_lst d') ->
  d_active d = Some p -> deref d p = Ok k ->
  inbox con (d_out d') = inbox con (d_out d) ++ (if wr (d_nw d) then [fst (greeting k)] else []) ++ snd (greeting k).
Proof.
  intros H Hn Hi Hp Hk. unfold add_listener in H. destruct (Nat.eqb (length _) _).
  - apply Ok_inj in H. subst. contradiction.
  - rewrite Hp, Hk in H. cbn [bind] in H.
    assert (G : lname (k_cfg k) (current_layout k) = lname (k_cfg k) (hd 0%nat (filter (fun i => active_layer k i && is_layout (ltypei (k_cfg k) i))
                  (seq 1 (length (c_layers (k_cfg k)) - 1))))).
    { unfold current_layout. f_equal. generalize (seq 1 (length (c_layers (k_cfg k)) - 1)) as l.
      induction l as [|x r IH]; cbn [find filter]; [reflexivity|].
      change (negb (l_active (k_ls k x) =? 0)) with (active_layer k x). destruct (andb _ _); [reflexivity|exact IH]. }
    unfold write_msg in H.
    match type of H with context [send_layers wr con k ?is ?e] => destruct (send_layers wr con k is e) as [d2 o2] eqn:E2; set (d1 := e) in * end.
    apply Ok_inj in H. subst. destruct o2.
    + apply send_layers_spec in E2 as [A B]. cbn [d_out set_d_lst]. rewrite B. rewrite app_assoc. f_equal.
      unfold d1, vemit. cbn [d_out set_d_nw set_d_out inbox greeting fst]. rewrite G, Nat.eqb_refl.
      destruct (wr (d_nw d)); [reflexivity|now rewrite app_nil_r].
    + exfalso. apply Hn. cbn [vemit d_lst set_d_out] in Hi.
      assert (X : d_lst d2 = d_lst d1); [|rewrite X in Hi; exact Hi].
      clearbody d1. clear - E2. revert d1 E2. generalize (seq 1 (length (c_layers (k_cfg k)) - 1)) as is.
      induction is as [|i r IH]; cbn [send_layers]; intros d1 E2; [discriminate E2|].
      destruct (andb _ _); [|now apply IH]. unfold write_msg in E2.
      destruct (wr (d_nw d1)); [apply IH in E2; exact E2|]. apply pair_equal_spec in E2 as [<- _]. reflexivity.
Qed.

(* ---- keyboards without live binds ------------------------------------------------------------------ *)
Definition old (d : dstate) : Prop := Forall (fun k => (k_clock k <= d_clock d)%Z) (d_ents d).
Definition HR (d d' : dstate) : Prop :=
  old d -> old d' /\ length (d_ents d') = length (d_ents d) /\
  forall j k k', nth_error (d_ents d) j = Some k -> nth_error (d_ents d') j = Some k' ->
    forall c clk, history c clk k -> history c clk k'.
Lemma HR_same d d' : d_ents d' = d_ents d -> d_clock d' = d_clock d -> HR d d'.
Proof.
  intros A B O. unfold old. rewrite A, B. split; [exact O|]. split; [reflexivity|].
  intros j k k' H H'. rewrite H in H'. injection H' as <-. auto.
Qed.
Lemma HR_trans a b c : HR a b -> HR b c -> HR a c.
Proof.
  intros H1 H2 O. destruct (H1 O) as (O1 & L1 & T1), (H2 O1) as (O2 & L2 & T2).
  split; [exact O2|]. split; [congruence|]. intros j k k' A C c0 clk Hh.
  destruct (nth_error (d_ents b) j) as [k1|] eqn:E.
  - eapply T2; eauto.
  - apply nth_error_None in E. assert (j < length (d_ents a))%nat by (apply nth_error_Some; congruence). lia.
Qed.
Lemma HR_store p k k1 d d1 : deref d p = Ok k -> d_ents d1 = d_ents d -> (d_clock d <= d_clock d1)%Z ->
  (old d -> (k_clock k1 <= d_clock d1)%Z /\ forall c clk, history c clk k -> history c clk k1) -> HR d (store p k1 d1).
Proof.
  intros Hd He Hc Hh O. destruct (Hh O) as [Hk Hk']. split; [|split].
  - unfold old. cbn [store d_ents d_clock set_d_ents]. rewrite He. apply Forall_upd; [exact Hk|].
    eapply Forall_impl; [|exact O]. intros x. cbn beta. lia.
  - cbn [store d_ents set_d_ents]. now rewrite upd_length, He.
  - intros j x x' Hx Hx' c clk H. cbn [store d_ents set_d_ents] in Hx'. rewrite He, nth_upd_error in Hx'.
    unfold deref in Hd. destruct (Nat.eqb _ _); [|discriminate Hd]. destruct (nth_error (d_ents d) (snd p)) as [y|] eqn:Ey; [|discriminate Hd].
    apply Ok_inj in Hd. subst y. destruct (Nat.eqb_spec (snd p) j) as [<-|Ne]; cbn [andb] in Hx'.
    + assert (Hl : Nat.ltb (snd p) (length (d_ents d)) = true) by (apply Nat.ltb_lt, nth_error_Some; congruence).
      rewrite Hl in Hx'. injection Hx' as <-. apply Hk'. congruence.
    + congruence.
Qed.
Lemma handler_history fuel wr con ev ts d d' t : unbinding ev -> connected con ev -> event_handler fuel wr ev ts d = Ok (d', t) -> HR d d'.
Proof.
  intros Hu Hr. apply (handler_rel fuel wr HR (fun _ => True) False False);
    try (intros; apply HR_same; reflexivity).
  - exact HR_trans.
  - intros c s e. destruct (dsend_ents c s e) as (A & _ & B & _). now apply HR_same.
  - intros p ev0 e e' t0 H. apply run_inv in H as (k & k1 & d1 & E1 & E2 & E3 & ->).
    destruct (deliver_ents _ _ _ _ _ _ E3) as (A & _ & B & _). cbn [d_ents d_clock set_d_clock] in A, B.
    assert (M : (d_clock e <= k_clock k1)%Z).
    { apply kbd_process_events_steps in E2. apply steps_clock in E2. exact E2. }
    apply (HR_store p k k1 e d1 E1 A); [lia|]. intros O. split; [lia|]. intros c clk Hh. eapply hi_events; [|exact E2].
    eapply hi_outside; [exact Hh|]. apply out_clock. apply deref_in in E1. unfold old in O. rewrite Forall_forall in O. now apply O.
  - intros p k x y e H. apply (HR_store p k _ e e H); [reflexivity|lia|]. intros O. split.
    + apply deref_in in H. unfold old in O. rewrite Forall_forall in O. exact (O _ H).
    + intros c clk Hh. eapply hi_outside; [exact Hh|apply out_motion].
  - intros c e e' _ H.
    assert (A : same_ents e e').
    { revert H. apply listener_keeps; intros; try (repeat split; fail). eapply same_ents_trans; eauto. }
    destruct A as (A & _ & B & _). now apply HR_same.
  - intros ? ? ? ? [].
  - intros ? ? ? ? [].
  - destruct ev as [| | | |c m x g]; auto. unfold permitted, connected, unbinding in *. destruct (i_type m); auto.
Qed.
Lemma later_history fuel wr con d d' : later fuel wr (fun ev => connected con ev /\ unbinding ev) d d' -> HR d d'.
Proof.
  induction 1 as [|d1 ev ts d2 t _ IH [Hok Hu] H|d1 v _ IH].
  - now apply HR_same.
  - eapply HR_trans; [exact IH|]. eapply handler_history; eauto.
  - eapply HR_trans; [exact IH|]. now apply HR_same.
Qed.
Lemma later_weaken fuel wr (P Q : event -> Prop) d d' : (forall ev, P ev -> Q ev) -> later fuel wr P d d' -> later fuel wr Q d d'.
Proof. intros H. induction 1; [apply la_now|eapply la_call; eauto|apply la_devices; auto]. Qed.

(* ---- counting ---------------------------------------------------------------------------------------- *)
Lemma copies_app t a b : copies t (a ++ b) = (copies t a + copies t b)%nat.
Proof. apply count_occ_app. Qed.
Lemma copies_one t x : copies t [x] = if list_eq_dec N.eq_dec x t then 1%nat else 0%nat.
Proof. unfold copies. cbn. destruct (list_eq_dec N.eq_dec x t); reflexivity. Qed.
Lemma messages_app i b l r : messages i b (l ++ r) = (messages i b l + messages i b r)%nat.
Proof. induction l as [|[| | |] l IH]; cbn [app messages]; rewrite ?IH; lia. Qed.
Lemma messages_rev i b l : messages i b (rev l) = messages i b l.
Proof.
  induction l as [|x l IH]; cbn [rev]; [reflexivity|]. rewrite messages_app, IH.
  destruct x; cbn [messages]; lia.
Qed.
Lemma msg_inj (n m : str) : n ++ [10] = m ++ [10] -> n = m.
Proof. apply app_inv_tail. Qed.
Lemma announce_copies c i (b : bool) os : sole c i -> is_layout (ltypei c i) = false ->
  copies ((if b then 43 else 45) :: lname c i ++ [10]) (flat_map (announce c) os) = messages i b os.
Proof.
  intros Hs Hl. induction os as [|o r IH]; cbn [flat_map messages]; [reflexivity|].
  rewrite copies_app, IH. destruct o as [|j on ind| |]; try reflexivity. cbn [announce]. rewrite copies_one. f_equal.
  destruct (Nat.eqb_spec j i) as [->|Ne].
  - rewrite Hl. cbn [andb]. destruct (list_eq_dec _ _ _) as [E|E]; destruct on, b; cbn [Bool.eqb]; try reflexivity;
      (discriminate E || (elim E; reflexivity)).
  - cbn [andb]. destruct (list_eq_dec _ _ _) as [E|E]; [|reflexivity]. injection E as _ E. apply msg_inj in E.
    elim (Hs j Ne E).
Qed.
Lemma texts_single k log : texts_of [k] log = flat_map (announce (k_cfg k)) (effects 0 log).
Proof.
  unfold texts_of, effects. induction log as [|[j o] r IH]; cbn [flat_map filter map fst snd]; [reflexivity|].
  destruct j as [|j]; cbn [nth_error Nat.eqb]; [cbn [map flat_map snd]; now rewrite IH|].
  destruct j; exact IH.
Qed.
Lemma greeting_copies k i : sole (k_cfg k) i -> is_layout (ltypei (k_cfg k) i) = false ->
  (0 < i < length (c_layers (k_cfg k)))%nat -> (l_active (k_ls k i) <= 1) ->
  copies (plus_msg (k_cfg k) i) (snd (greeting k)) = N.to_nat (l_active (k_ls k i)) /\
  copies (minus_msg (k_cfg k) i) (snd (greeting k)) = 0%nat.
Proof.
  intros Hs Hl Hi Ha. unfold greeting. cbn [snd]. set (f := fun x => active_layer k x && negb (is_layout (ltypei (k_cfg k) x))).
  assert (Hin : In i (seq 1 (length (c_layers (k_cfg k)) - 1))) by (apply in_seq; lia).
  pose proof (seq_NoDup (length (c_layers (k_cfg k)) - 1) 1) as ND.
  revert Hin ND. generalize (seq 1 (length (c_layers (k_cfg k)) - 1)) as is. intros is Hin ND. split.
  - assert (Z : forall l, ~ In i l -> copies (plus_msg (k_cfg k) i) (map (fun x => 43 :: lname (k_cfg k) x ++ [10]) (filter f l)) = 0%nat).
    { induction l as [|x r IH]; intros Hn; cbn [filter map]; [reflexivity|].
      assert (x <> i) by (intros ->; apply Hn; now left). assert (~ In i r) by (intros X; apply Hn; now right).
      destruct (f x); [|auto]. cbn [map]. change (?a :: ?b) with ([a] ++ b). rewrite copies_app, IH, copies_one by auto.
      destruct (list_eq_dec _ _ _) as [E|E]; [|reflexivity]. injection E as E. apply msg_inj in E. elim (Hs x); auto. }
    induction is as [|x r IH]; [destruct Hin|]. inversion ND as [|? ? Nx ND']; subst. cbn [filter].
    destruct (Nat.eq_dec x i) as [->|Ne].
    + assert (F : f i = negb (l_active (k_ls k i) =? 0)) by (unfold f, active_layer; now rewrite Hl, andb_true_r).
      rewrite F. destruct (N.eqb_spec (l_active (k_ls k i)) 0) as [->|N0]; cbn [negb]; [now apply Z|].
      cbn [map]. change (?a :: ?b) with ([a] ++ b). rewrite copies_app, Z, copies_one by auto.
      destruct (list_eq_dec _ _ _) as [E|E]; [|elim E; reflexivity]. lia.
    + destruct Hin as [->|Hin]; [contradiction|]. destruct (f x); [|now apply IH].
      cbn [map]. change (?a :: ?b) with ([a] ++ b). rewrite copies_app, IH, copies_one by auto.
      destruct (list_eq_dec _ _ _) as [E|E]; [|reflexivity]. injection E as E. apply msg_inj in E. elim (Hs x); auto.
  - clear. induction (filter f is) as [|x r IH]; cbn [map]; [reflexivity|]. change (?a :: ?b) with ([a] ++ b).
    rewrite copies_app, IH, copies_one. destruct (list_eq_dec _ _ _) as [E|E]; [discriminate E|reflexivity].
Qed.
Lemma send_false wr con k is d d' : send_layers wr con k is d = (d', false) -> d_lst d' = d_lst d.
Proof.
  revert d. induction is as [|i r IH]; cbn [send_layers]; intros d1 E2; [discriminate E2|].
  destruct (andb _ _); [|now apply IH]. unfold write_msg in E2.
  destruct (wr (d_nw d1)); [apply IH in E2; exact E2|]. apply pair_equal_spec in E2 as [<- _]. reflexivity.
Qed.
