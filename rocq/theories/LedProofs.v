(* The layer indicator. *)
From Verif Require Import Base Lib Types Keys MacroExec Kbd Str MacroParse Config Match Outside Steps Hist Ini ParseFrame SpecHist Wf WfHist SpecMods Device Daemon SpecDaemon DaemonProofs EntryProofs ListenProofs SpecLed.
Local Open Scope N_scope.

(* ---- the engine: each announcement carries whether a layer is active -------------- *)
Fixpoint flags (out : list oev) : list bool :=
  match out with
  | [] => []
  | OLayer _ _ f :: r => f :: flags r
  | _ :: r => flags r
  end.
Lemma flags_app a b : flags (a ++ b) = flags a ++ flags b.
Proof. induction a as [|[] a IH]; cbn [app flags]; rewrite ?IH; reflexivity. Qed.
Lemma flags_notes l : length (flags l) = length (notes l).
Proof. induction l as [|[] l IH]; cbn [flags notes filter length]; unfold notes in *; cbn [filter length]; lia. Qed.
Definition lamp (k k' : kbd) (new : list oev) : Prop :=
  match flags new with [] => indicator k' = indicator k | f :: _ => f = indicator k' end.
Lemma lamp_trans a b c n m : lamp a b n -> lamp b c m -> lamp a c (m ++ n).
Proof. unfold lamp. rewrite flags_app. destruct (flags m); cbn [app]; [|auto]. destruct (flags n); congruence. Qed.
Lemma existsb_same {A} (f g : A -> bool) l : (forall x, In x l -> f x = g x) -> existsb f l = existsb g l.
Proof. intros H. induction l as [|x l IH]; cbn [existsb]; [reflexivity|]. rewrite H, IH; [reflexivity| |now left]. intros; apply H; now right. Qed.
Lemma indicator_same k k' : same_names (k_cfg k) (k_cfg k') ->
  (forall i, is_layout (ltypei (k_cfg k) i) = false -> is_active k' i = is_active k i) -> indicator k' = indicator k.
Proof.
  intros [A B] H. unfold indicator, nlayers. rewrite A. apply existsb_same. intros i _.
  destruct (B i) as [_ C]. change (ly_type (layer_at k' i)) with (ltypei (k_cfg k') i). change (ly_type (layer_at k i)) with (ltypei (k_cfg k) i).
  rewrite C. destruct (is_layout (ltypei (k_cfg k) i)) eqn:E; [reflexivity|]. cbn [negb andb]. auto.
Qed.
Lemma indicator_eq k k' : k_cfg k' = k_cfg k -> (forall i, is_active k' i = is_active k i) -> indicator k' = indicator k.
Proof. intros A B. apply indicator_same; [rewrite A; apply same_names_refl|auto]. Qed.
Lemma macro_flags m to : flags (macro_execute m to) = [].
Proof.
  assert (G : forall l, forallb no_layer l = true -> flags l = []).
  { induction l as [|[] l IH]; cbn [forallb no_layer flags andb]; auto; discriminate. }
  apply G, mexec_no_layer.
Qed.
Lemma flags_rev l : flags (rev l) = rev (flags l).
Proof. induction l as [|[] l IH]; cbn [rev flags]; rewrite ?flags_app, ?IH; cbn [flags]; rewrite ?app_nil_r; reflexivity. Qed.
Lemma prim_lamp k k' : prim k k' -> exists new, k_out k' = new ++ k_out k /\ lamp k k' new.
Proof.
  intros H. destruct H as [k k' H|k c p|k c|k m|k s|k code i k' H|k i k' H|k i|k i|k i].
  - destruct H as (A & _ & _ & B & _ & C & _). exists []. split; [exact B|]. unfold lamp. cbn [flags].
    apply indicator_eq; [exact A|]. intros i. unfold is_active. now rewrite C.
  - unfold send_key. repeat match goal with |- context [if ?b then _ else _] => destruct b end;
    cbn [k_out emit set_k_out set_k_ks set_k_last_out]; ((now exists []) || (now eexists [_])).
  - now eexists [_].
  - exists (rev (macro_execute m (c_macro_seq_timeout (k_cfg k)))). split; [reflexivity|].
    unfold lamp. rewrite flags_rev, macro_flags. reflexivity.
  - now eexists [_].
  - unfold activate_layer in H. bauto H. eexists [_]. split; [reflexivity|]. reflexivity.
  - unfold deactivate_layer in H. bauto H. eexists [_]. split; [reflexivity|]. reflexivity.
  - exists []. split; [unfold drop_layout; destruct (is_layout _); reflexivity|]. unfold lamp. cbn [flags].
    unfold drop_layout. destruct (is_layout (ly_type (layer_at k i))) eqn:E; [|reflexivity].
    apply indicator_same; [apply same_names_refl|]. intros j Hj. unfold is_active. cbn [k_ls set_lsi set_k_ls].
    unfold nupd. destruct (Nat.eqb_spec j i) as [->|]; [|reflexivity].
    change (ltypei (k_cfg k) i) with (ly_type (layer_at k i)) in Hj. congruence.
  - eexists [_]. split; [reflexivity|]. reflexivity.
  - eexists [_]. split; [reflexivity|]. reflexivity.
Qed.
Lemma steps_lamp k k' : steps k k' -> exists new, k_out k' = new ++ k_out k /\ lamp k k' new.
Proof.
  induction 1 as [k|k k1 k2 H _ [n2 [A2 B2]]]; [now exists []|]. apply prim_lamp in H as [n1 [A1 B1]].
  exists (n2 ++ n1). split; [now rewrite A2, A1, app_assoc|eapply lamp_trans; eauto].
Qed.
Lemma indicator_on k : indicator k = true <-> layer_on k.
Proof.
  unfold indicator, layer_on. rewrite existsb_exists. split.
  - intros (i & Hi & H). apply in_seq in Hi. apply andb_true_iff in H as [H1 H2]. exists i. unfold nlayers in Hi. split; [lia|].
    change (ly_type (layer_at k i)) with (ltypei (k_cfg k) i) in H1. split; [|exact H2]. intros E. rewrite E in H1. discriminate H1.
  - intros (i & Hi & H1 & H2). exists i. split; [apply in_seq; unfold nlayers; lia|].
    change (ly_type (layer_at k i)) with (ltypei (k_cfg k) i). change (is_active k i) with (active_layer k i). rewrite H2, andb_true_r.
    destruct (ltypei (k_cfg k) i); try reflexivity. now elim H1.
Qed.

(* ---- the daemon --------------------------------------------------------------------- *)
Lemma leds_emit i v d : match v with VLed _ _ _ => False | _ => True end -> leds i (d_out (vemit v d)) = leds i (d_out d).
Proof. destruct v; intros H; try reflexivity. destruct H. Qed.
Lemma set_leds_spec i p ind devs : forall n d, leds i (d_out (set_leds p ind devs n d)) =
  (if Nat.leb n i && match nth_error devs (i - n) with
                     | Some dv => match dv_data dv with Some q => kptr_eqb q p | None => false end
                     | None => false end
   then [(1, if ind then 1 else 0)] else []) ++ leds i (d_out d).
Proof.
  induction devs as [|dv r IH]; cbn [set_leds]; intros n d.
  - destruct (i - n)%nat; cbn [nth_error]; rewrite andb_false_r; reflexivity.
  - rewrite IH. destruct (Nat.leb_spec n i) as [L|L].
    + destruct (Nat.eq_dec n i) as [->|Ne].
      * rewrite Nat.sub_diag. cbn [nth_error]. assert (X : Nat.leb (S i) i = false) by (apply Nat.leb_gt; lia). rewrite X. cbn [andb app].
        destruct (dv_data dv) as [q|]; [|reflexivity]. destruct (kptr_eqb q p); [|reflexivity].
        cbn [vemit d_out set_d_out leds app]. rewrite Nat.eqb_refl. reflexivity.
      * assert (X : Nat.leb (S n) i = true) by (apply Nat.leb_le; lia). rewrite X. replace (i - n)%nat with (S (i - S n)) by lia. cbn [nth_error andb].
        f_equal. destruct (dv_data dv) as [q|]; [|reflexivity]. destruct (kptr_eqb q p); [|reflexivity].
        cbn [vemit d_out set_d_out leds]. apply Nat.eqb_neq in Ne. now rewrite Ne.
    + assert (X : Nat.leb (S n) i = false) by (apply Nat.leb_gt; lia). rewrite X. cbn [andb app].
      destruct (dv_data dv) as [q|]; [|reflexivity]. destruct (kptr_eqb q p); [|reflexivity].
      cbn [vemit d_out set_d_out leds]. assert (Y : Nat.eqb n i = false) by (apply Nat.eqb_neq; lia). now rewrite Y.
Qed.
Lemma notify_leds i wr text ls : forall keep d, leds i (d_out (notify wr text ls keep d)) = leds i (d_out d).
Proof.
  induction ls as [|c r IH]; cbn [notify]; intros keep d; [reflexivity|]. unfold write_msg. destruct (wr (d_nw d)); rewrite IH; reflexivity.
Qed.
Definition mine (d : dstate) (i : nat) (p : kptr) : bool :=
  match keyboard_of d i with Some q => kptr_eqb q p | None => false end.
Definition values (c : config) (fs : list bool) : list (N * N) :=
  if c_indicator c then map (fun f : bool => (1, if f then 1 else 0)) fs else [].
Lemma layer_leds i wr p c j on ind d d' : on_layer_change wr p c j on ind d = Ok d' ->
  leds i (d_out d') = (if mine d i p then values c [ind] else []) ++ leds i (d_out d).
Proof.
  unfold on_layer_change, values. intros H.
  match type of H with (match d_lst ?e with _ => _ end = _) => set (d1 := e) in * end.
  assert (S1 : leds i (d_out d1) = (if mine d i p then (if c_indicator c then [(1, if ind then 1 else 0)] else []) else []) ++ leds i (d_out d)).
  { unfold d1, mine, keyboard_of. destruct (c_indicator c); [|now destruct (match _ with Some _ => _ | None => _ end)].
    rewrite set_leds_spec, Nat.sub_0_r. cbn [Nat.leb andb]. destruct (nth_error (d_devs d) i) as [dv|]; reflexivity. }
  clearbody d1. cbn [map]. rewrite <- S1. destruct (d_lst d1) as [|x ls].
  - apply Ok_inj in H. now subst.
  - destruct (buf_text _ _); cbn [bind] in H; try discriminate H. apply Ok_inj in H. subst. apply notify_leds.
Qed.
Lemma dsend_leds i c s d : leds i (d_out (dsend_key c s d)) = leds i (d_out d).
Proof. unfold dsend_key. repeat match goal with |- context [if ?b then _ else _] => destruct b end; reflexivity. Qed.
Lemma deliver_leds i wr p c os : forall d d', deliver_all wr p c os d = Ok d' ->
  leds i (d_out d') = (if mine d i p then values c (rev (flags os)) else []) ++ leds i (d_out d).
Proof.
  induction os as [|o r IH]; cbn [deliver_all flags]; intros d d' H.
  - apply Ok_inj in H. subst d'. unfold values. cbn [rev map]. now destruct (mine d i p), (c_indicator c).
  - destruct (deliver wr p c d o) as [d1| | |] eqn:E; cbn [bind] in H; try discriminate H.
    assert (M : mine d1 i p = mine d i p).
    { assert (X : same_ents d d1) by (apply (deliver_ents wr p c [o]); cbn [deliver_all]; rewrite E; reflexivity).
      destruct X as (_ & _ & _ & X & _). unfold mine, keyboard_of. now rewrite X. }
    rewrite (IH _ _ H), M. destruct o as [k s|j on ind|s|us]; unfold deliver in E.
    + apply Ok_inj in E. subst d1. now rewrite dsend_leds.
    + rewrite (layer_leds i _ _ _ _ _ _ _ _ E). cbn [rev]. unfold values. destruct (mine d i p); [|reflexivity].
      destruct (c_indicator c); [|reflexivity]. rewrite map_app. cbn [map]. now rewrite <- app_assoc.
    + apply Ok_inj in E. subst d1. reflexivity.
    + apply Ok_inj in E. subst d1. reflexivity.
Qed.

Definition settled (k : kbd) : Prop := origin k /\ c_indicator (k_orig k) = c_indicator (k_cfg k).
Definition follows (i : nat) (p : kptr) (k : kbd) (d d' : dstate) : Prop :=
  exists k' new, deref d' p = Ok k' /\ same_names (k_cfg k) (k_cfg k') /\ c_indicator (k_cfg k') = c_indicator (k_cfg k) /\
    k_out k' = new ++ k_out k /\ leds i (d_out d') = values (k_cfg k) (flags new) ++ leds i (d_out d) /\ lamp k k' new.
Definition LD (i : nat) (d d' : dstate) : Prop :=
  Forall settled (d_ents d) -> Forall settled (d_ents d') /\ keyboard_of d' i = keyboard_of d i /\
  match keyboard_of d i with
  | None => leds i (d_out d') = leds i (d_out d)
  | Some p => forall k, deref d p = Ok k -> follows i p k d d'
  end.
Lemma LD_same i d d' : d_ents d' = d_ents d -> d_gen d' = d_gen d -> keyboard_of d' i = keyboard_of d i ->
  leds i (d_out d') = leds i (d_out d) -> LD i d d'.
Proof.
  intros A B C D O. split; [now rewrite A|]. split; [exact C|]. destruct (keyboard_of d i) as [p|]; [|exact D].
  intros k Hk. exists k, []. split; [unfold deref in *; now rewrite A, B|]. split; [apply same_names_refl|]. split; [reflexivity|].
  split; [reflexivity|]. split; [|reflexivity]. rewrite D. unfold values. now destruct (c_indicator _).
Qed.
Lemma LD_trans i a b c : LD i a b -> LD i b c -> LD i a c.
Proof.
  intros H1 H2 O. destruct (H1 O) as (O1 & K1 & M1), (H2 O1) as (O2 & K2 & M2). split; [exact O2|]. split; [congruence|].
  rewrite K1 in M2. destruct (keyboard_of a i) as [p|]; [|congruence].
  intros k Hk. destruct (M1 k Hk) as (k1 & n1 & D1 & S1 & I1 & T1 & L1 & P1).
  destruct (M2 k1 D1) as (k2 & n2 & D2 & S2 & I2 & T2 & L2 & P2). exists k2, (n2 ++ n1).
  split; [exact D2|]. split; [eapply same_names_trans; eauto|]. split; [congruence|]. split; [now rewrite T2, T1, app_assoc|].
  split; [|eapply lamp_trans; eauto]. rewrite L2, L1, flags_app. unfold values. rewrite I1. destruct (c_indicator (k_cfg k)); [|reflexivity].
  now rewrite map_app, app_assoc.
Qed.
Lemma deref_nth d p k : deref d p = Ok k <-> fst p = d_gen d /\ nth_error (d_ents d) (snd p) = Some k.
Proof.
  unfold deref. destruct (Nat.eqb_spec (fst p) (d_gen d)) as [E|E].
  - destruct (nth_error _ _) as [x|]; split; intros H.
    + apply Ok_inj in H. now subst.
    + destruct H as [_ H]. injection H as ->. reflexivity.
    + discriminate H.
    + now destruct H.
  - split; [discriminate|]. now intros [? _].
Qed.
Lemma LD_store i q k k1 d d1 os : deref d q = Ok k -> d_ents d1 = d_ents d -> d_gen d1 = d_gen d -> d_devs d1 = d_devs d ->
  k_out k1 = os ++ k_out k -> k_cfg k1 = k_cfg k -> k_orig k1 = k_orig k -> lamp k k1 os ->
  leds i (d_out d1) = (if mine d i q then values (k_cfg k) (flags os) else []) ++ leds i (d_out d) -> LD i d (store q k1 d1).
Proof.
  intros Hd He Hg Hv Ho Hc Hq Hl Hs O. apply deref_nth in Hd as [Hd1 Hd2]. split; [|split].
  - cbn [store d_ents set_d_ents]. rewrite He. apply Forall_upd; [|exact O]. unfold settled, origin. rewrite Hc, Hq.
    rewrite Forall_forall in O. apply O. eapply nth_error_In; eauto.
  - unfold keyboard_of. cbn [store d_devs set_d_ents]. now rewrite Hv.
  - change (d_out (store q k1 d1)) with (d_out d1). unfold mine in Hs. destruct (keyboard_of d i) as [p|]; [|exact Hs].
    intros x Hx. apply deref_nth in Hx as [Hx1 Hx2].
    assert (Q : kptr_eqb p q = Nat.eqb (snd p) (snd q)) by (unfold kptr_eqb; rewrite Hx1, Hd1, Nat.eqb_refl; reflexivity).
    rewrite Q in Hs. destruct (Nat.eqb_spec (snd p) (snd q)) as [E|E].
    + assert (x = k) by congruence. subst x. exists k1, os. split.
      { apply deref_nth. split; [cbn [store d_gen set_d_ents]; congruence|]. cbn [store d_ents set_d_ents]. rewrite He, nth_upd_error, E, Nat.eqb_refl.
        assert (X : Nat.ltb (snd q) (length (d_ents d)) = true) by (apply Nat.ltb_lt, nth_error_Some; congruence). now rewrite X. }
      rewrite Hc. split; [apply same_names_refl|]. auto.
    + exists x, []. split.
      { apply deref_nth. split; [cbn [store d_gen set_d_ents]; congruence|]. cbn [store d_ents set_d_ents]. rewrite He, nth_upd_error.
        assert (X : Nat.eqb (snd q) (snd p) = false) by (apply Nat.eqb_neq; congruence). now rewrite X. }
      split; [apply same_names_refl|]. split; [reflexivity|]. split; [reflexivity|]. split; [|reflexivity].
      change (d_out (store q k1 d1)) with (d_out d1). rewrite Hs. unfold values. now destruct (c_indicator _).
Qed.
Lemma LD_run i fuel wr p ev d d' t : run_kbd fuel wr p ev d = Ok (d', t) -> LD i d d'.
Proof.
  intros H. apply run_inv in H as (k & k1 & d1 & E1 & E2 & E3 & ->).
  apply kbd_process_events_steps in E2. destruct (steps_cfg _ _ E2) as [Hc Hg]. destruct (steps_lamp _ _ E2) as [o [Ho Hl]].
  cbn [k_out k_cfg k_orig set_k_clock] in *.
  assert (X : firstn (length (k_out k1) - length (k_out k)) (k_out k1) = o).
  { rewrite Ho, app_length, Nat.add_sub, firstn_app, Nat.sub_diag, firstn_all. cbn [firstn]. apply app_nil_r. }
  rewrite X in E3. destruct (deliver_ents _ _ _ _ _ _ E3) as (A & B & _ & C & _). cbn [d_ents d_gen d_devs set_d_clock] in A, B, C.
  apply (LD_store i p k k1 d d1 o E1 A B C); auto.
  rewrite (deliver_leds i _ _ _ _ _ _ E3), flags_rev, rev_involutive, Hc. reflexivity.
Qed.

Lemma add_entry_indicator c exp c' ok : config_add_entry c exp = Ok (c', ok) -> c_indicator c' = c_indicator c.
Proof.
  rewrite add_entry_unfold. intros H.
  destruct (N.leb _ _); [apply Ok_inj in H; apply pair_equal_spec in H as [<- _]; reflexivity|].
  destruct (split_entry exp) as [ln s]. destruct (Ini.parse_kvp s) as [key val].
  destruct (config_get_layer_index c ln) as [idx|]; [|apply Ok_inj in H; apply pair_equal_spec in H as [<- _]; reflexivity].
  match type of H with bind ?x _ = _ => destruct x as [[c1 d]| | |] eqn:E end; cbn [bind] in H; try discriminate H.
  assert (Hc : c_indicator c1 = c_indicator c).
  { destruct val as [v|]; [|apply Ok_inj in E; apply pair_equal_spec in E as [<- _]; reflexivity].
    apply parse_desc_grows in E. destruct E as (ds & ms & ks & ->). reflexivity. }
  destruct d as [d|]; [|apply Ok_inj in H; apply pair_equal_spec in H as [<- _]; exact Hc].
  destruct (set_layer_entry _ _ _ _) as [l|] eqn:El; apply Ok_inj in H; apply pair_equal_spec in H as [<- _]; exact Hc.
Qed.
Lemma eval_settled k exp k' ok : kbd_eval k exp = Ok (k', ok) -> settled k ->
  settled k' /\ same_names (k_cfg k) (k_cfg k') /\ c_indicator (k_cfg k') = c_indicator (k_cfg k) /\
  k_out k' = k_out k /\ indicator k' = indicator k.
Proof.
  intros H [O I]. pose proof (eval_names _ _ _ _ H O) as (O' & N & T). unfold kbd_eval in H.
  assert (X : k_ls k' = k_ls k /\ c_indicator (k_orig k') = c_indicator (k_cfg k') /\ c_indicator (k_cfg k') = c_indicator (k_cfg k)).
  { destruct (str_eqb _ _).
    - apply Ok_inj in H. apply pair_equal_spec in H as [<- _]. auto.
    - destruct (config_add_entry _ _) as [[c1 o1]| | |] eqn:E; cbn [bind] in H; try discriminate H.
      apply Ok_inj in H. apply pair_equal_spec in H as [<- _]. cbn [k_cfg k_orig k_ls set_k_cfg].
      apply add_entry_indicator in E. rewrite E. auto. }
  destruct X as (X1 & X2 & X3). split; [split; auto|]. split; [exact N|]. split; [exact X3|]. split; [exact T|].
  apply indicator_same; [exact N|]. intros i _. unfold is_active. now rewrite X1.
Qed.
Lemma eval_all_settled exp : forall l ks ok, eval_all l exp = Ok (ks, ok) -> Forall settled l ->
  Forall settled ks /\ forall j k, nth_error l j = Some k -> exists k', nth_error ks j = Some k' /\
    same_names (k_cfg k) (k_cfg k') /\ c_indicator (k_cfg k') = c_indicator (k_cfg k) /\ k_out k' = k_out k /\ indicator k' = indicator k.
Proof.
  induction l as [|k r IH]; cbn [eval_all]; intros ks ok H F.
  - apply Ok_inj in H. apply pair_equal_spec in H as [<- _]. split; [constructor|]. intros [|j] k X; discriminate X.
  - destruct (kbd_eval k exp) as [[k1 o1]| | |] eqn:E1; cbn [bind] in H; try discriminate H.
    destruct (eval_all r exp) as [[r1 o2]| | |] eqn:E2; cbn [bind] in H; try discriminate H.
    apply Ok_inj in H. apply pair_equal_spec in H as [<- _]. inversion F as [|? ? F1 F2]; subst.
    destruct (IH _ _ eq_refl F2) as [A B]. apply eval_settled in E1 as (D & G); [|exact F1].
    split; [now constructor|]. intros [|j] x Hx; cbn [nth_error] in *; [|now apply B]. injection Hx as <-. exists k1. auto.
Qed.
Lemma LD_bind i exp d ks ok : eval_all (d_ents d) exp = Ok (ks, ok) -> LD i d (set_d_ents ks d).
Proof.
  intros H O. destruct (eval_all_settled _ _ _ _ H O) as [A B]. split; [exact A|]. split; [reflexivity|].
  destruct (keyboard_of d i) as [p|]; [|reflexivity]. intros k Hk. apply deref_nth in Hk as [H1 H2].
  destruct (B _ _ H2) as (k' & C1 & C2 & C3 & C4 & C5). exists k', []. split; [apply deref_nth; auto|].
  split; [exact C2|]. split; [exact C3|]. split; [exact C4|]. split; [|exact C5].
  cbn [d_out set_d_ents flags]. unfold values. now destruct (c_indicator (k_cfg k)).
Qed.
Lemma listener_leds i wr c d d' : add_listener wr c d = Ok d' -> same_ents d d' /\ leds i (d_out d') = leds i (d_out d).
Proof.
  intros H. split.
  - revert H. apply listener_keeps; intros; try (repeat split; fail). eapply same_ents_trans; eauto.
  - unfold add_listener in H. destruct (Nat.eqb (length _) _).
    + apply Ok_inj in H. subst d'. reflexivity.
    + destruct (d_active d) as [p|]; [|apply Ok_inj in H; subst d'; reflexivity].
      destruct (deref d p) as [k| | |]; cbn [bind] in H; try discriminate H. unfold write_msg in H.
      assert (G : forall is e, leds i (d_out (fst (send_layers wr c k is e))) = leds i (d_out e)).
      { induction is as [|j r IH]; cbn [send_layers]; intros e; [reflexivity|]. destruct (andb _ _); [|apply IH].
        unfold write_msg. destruct (wr (d_nw e)); [now rewrite IH|reflexivity]. }
      match type of H with context [send_layers wr c k ?is ?e] => specialize (G is e); destruct (send_layers wr c k is e) as [d2 o2] end.
      cbn [fst] in G. apply Ok_inj in H. subst d'. destruct o2; exact G.
Qed.
Lemma LD_handler i fuel wr ev ts d d' t : undisturbed i ev -> event_handler fuel wr ev ts d = Ok (d', t) -> LD i d d'.
Proof.
  intros Hok. apply (handler_rel_all fuel wr (LD i) (fun _ => True) True False False (fun j => j <> i));
    try (intros; apply LD_same; reflexivity).
  - intros a b c. apply LD_trans.
  - intros v e H. apply LD_same; try reflexivity. apply leds_emit. destruct v; auto.
  - intros ? ? ? ? [].
  - intros c s e. destruct (dsend_ents c s e) as (A & B & _ & C & _). apply LD_same; auto; [unfold keyboard_of; now rewrite C|apply dsend_leds].
  - intros. eapply LD_run; eauto.
  - intros p k x y e H _. eapply (LD_store i p k _ e e []); auto; [apply indicator_eq; reflexivity|].
    cbn [flags]. unfold values. now destruct (mine e i p), (c_indicator (k_cfg k)).
  - intros c e e' _ H. apply (listener_leds i) in H as [(A & B & _ & C & _) L]. apply LD_same; auto. unfold keyboard_of. now rewrite C.
  - intros exp e ks ok _ H. eapply LD_bind; eauto.
  - intros ? ? ? ? [].
  - intros j dv grab e Hj Hn. apply LD_same; try reflexivity. unfold keyboard_of. cbn [d_devs set_d_devs]. rewrite nth_upd_error.
    apply Nat.eqb_neq in Hj. now rewrite Hj.
  - destruct ev as [|j de|j g|j|con m x g]; auto. unfold permitted, undisturbed in *. destruct (i_type m); auto.
Qed.
Lemma LD_along i fuel wr d d' : along fuel wr i d d' -> LD i d d'.
Proof.
  induction 1 as [|d1 ev ts d2 t _ IH Hok H|d1 v _ IH H].
  - now apply LD_same.
  - eapply LD_trans; [exact IH|]. eapply LD_handler; eauto.
  - eapply LD_trans; [exact IH|]. apply LD_same; try reflexivity. exact H.
Qed.
Lemma reach_settled G c k : reach G c k -> settled k.
Proof.
  induction 1 as [clk Hk Hg|k fuel evs k' t Hr IH H|k exp k' ok Hr IH H Hg|k k' Hr IH H].
  - split; [apply same_names_refl|reflexivity].
  - apply kbd_process_events_steps, steps_cfg in H as [H1 H2]. unfold settled, origin. now rewrite H1, H2.
  - now apply eval_settled in H.
  - destruct H; exact IH.
Qed.
