(* C88: no macro repeats without a key held. *)
From Coq Require Import String.
From Verif Require Import Base Lib Keys Types MacroExec Kbd Config Outside Engine Steps Hist ModsProofs ActProofs OneProofs StepProofs CacheProofs Inv ClassInv SpecActions
  SpecLookup SpecHist SpecStuck SpecTimer KeptProofs LookupProofs ExTools WfHist PropAccount SpecAccount PropTimer SpecWf ParseWf PropTerm NoAbort StuckLife PropStuck SpecRest PropRest SpecStart.
Local Open Scope nat_scope.
Local Open Scope list_scope.
Local Notation length := List.length.

Lemma drop_layouts_amacro l : forall k, k_amacro (fold_left drop_layout l k) = k_amacro k.
Proof. induction l as [|i l IH]; intros k; cbn [fold_left]; [reflexivity|]. rewrite IH. unfold drop_layout. now destruct (is_layout _). Qed.
Lemma setlayout_amacro k i k' : setlayout k i = Ok k' -> k_amacro k' = None.
Proof.
  unfold setlayout. intros H. bstep H u Eu. bstep H k1 E1. apply Ok_inj in H. subst k'.
  assert (X : k_amacro k1 = None) by (norm_states; now kcbn).
  destruct (Nat.eqb i 0); kcbn; now rewrite drop_layouts_amacro.
Qed.
Lemma do_swap_amacro k dl i k' : do_swap k dl i = Ok k' -> k_amacro k' = k_amacro k.
Proof.
  intros H. unfold do_swap in H. bstep H u Eu. bstep H u2 Eu2.
  destruct (l_toggled (k_ls k dl)); [|destruct (negb _); [|destruct (swap_slot _ _ _ _)]].
  - bstep H k1 E1. bstep H k3 E3. apply Ok_inj in H. subst k'. norm_states. now kcbn.
  - bstep H k1 E1. bstep H k3 E3. apply Ok_inj in H. subst k'. norm_states. now kcbn.
  - bstep H k1 E1. bstep H k3 E3. apply Ok_inj in H. subst k'. norm_states. now kcbn.
  - apply Ok_inj in H. now subst.
Qed.
Lemma desc_at_T T k a x : modest T (k_cfg k) -> desc_at k a = Ok x -> (x = DNone \/ x = T a) /\ modest_desc T x.
Proof.
  intros M H. split; [|apply desc_at_in in H as [->|H]; [exact I|now apply (md_descs _ _ M)]].
  unfold desc_at in H. destruct (_ <? _)%N; [|discriminate]. apply Ok_inj in H. subst x.
  destruct (Nat.lt_ge_cases a (length (c_descs (k_cfg k)))) as [L|L].
  - right. now apply (md_nested _ _ M).
  - left. now apply nth_overflow.
Qed.
Definition starter (T : nat -> desc) (d : desc) : bool := match d with DMacro _ => true | _ => may_start T d end.
Ltac am := norm_states; kcbn; auto.
(* pressing an action that is no macro, and releasing any, starts no macro *)
Lemma pd_amacro T : forall fuel k code d dl pressed time k',
  process_descriptor fuel k code d dl pressed time = Ok k' -> modest T (k_cfg k) -> modest_desc T d ->
  (pressed = true -> starter T d = false) -> k_amacro k = None -> k_amacro k' = None.
Proof.
  induction fuel as [|fuel IH]; intros k code d dl pressed time k' H M Hd Hs Hn; [discriminate|].
  cbn [process_descriptor] in H. bstep H k0 E0. bstep H k1 E1. apply Ok_inj in H. subst k'.
  assert (Hl : k_amacro k1 = None -> k_amacro (if pressed then set_k_last_code code k1 else k1) = None) by (destruct pressed; auto).
  apply Hl. clear Hl.
  assert (Ec : k_cfg k0 = k_cfg k /\ k_amacro k0 = None).
  { destruct pressed; [|apply Ok_inj in E0; now subst]. apply pre_macro_only in E0 as [l [s [o ->]]]. auto. }
  destruct Ec as [Ec Hn0]. rewrite <- Ec in M. clear E0 Ec Hn k. rename k0 into k.
  assert (One : forall l, pd_oneshot k code l dl pressed time = Ok k1 -> k_amacro k1 = None).
  { clear E1. intros l E1. unfold pd_oneshot in E1. destruct pressed; [|destruct (k_latch k)].
    - bstep E1 k2 E2. apply Ok_inj in E1. subst. am.
    - bstep E1 u Eu. destruct (_ =? 0)%Z; [apply Ok_inj in E1; subst|]; am.
    - bstep E1 k2 E2. apply Ok_inj in E1. subst. am. }
  assert (Lay : forall l, pd_layer k code l pressed = Ok k1 -> k_amacro k1 = None).
  { clear E1. intros l E1. unfold pd_layer in E1. bstep E1 k2 E2. apply Ok_inj in E1. subst k1. destruct pressed; am. }
  assert (Tog : forall l, pd_toggle k code l pressed = Ok k1 -> k_amacro k1 = None).
  { clear E1. intros l E1. unfold pd_toggle in E1. destruct pressed; [|apply Ok_inj in E1; now subst].
    bstep E1 u Eu. bstep E1 k2 E2. apply clear_oneshot_ok in E1 as [? [? [-> _]]]. destruct (l_toggled _); am. }
  assert (Pen : forall t b x y, set_pending k code dl t b x y = Ok k1 -> k_amacro k1 = None).
  { clear E1. intros t b x y E1. unfold set_pending in E1. am. }
  destruct d; cbn [starter may_start] in Hs; try (apply Ok_inj in E1; subst; exact Hn0); eauto.
  all: try (destruct pressed; [specialize (Hs eq_refl); discriminate|]; try (apply Ok_inj in E1; subst; exact Hn0)).
  - unfold pd_key in E1. bstep E1 k2 E2. apply Ok_inj in E1. subst k1.
    assert (X : k_amacro k2 = None); [|destruct (_ || _); exact X].
    destruct pressed; [|apply Ok_inj in E2; subst; am]. destruct (k_ks k code0); am.
  - unfold pd_swap in E1. destruct pressed; [|apply Ok_inj in E1; subst; exact Hn0].
    bstep E1 k2 E2. apply Ok_inj in E1. subst. apply do_swap_amacro in E2. congruence.
  - bstep E1 mm Em. unfold pd_swap in E1. destruct pressed.
    + bstep E1 k2 E2. apply Ok_inj in E1. subst. apply do_swap_amacro in E2. am. congruence.
    + apply Ok_inj in E1. subst. destruct mm as [|[[] z] [|]]; am.
  - destruct pressed; [now apply setlayout_amacro in E1|apply Ok_inj in E1; now subst].
  - destruct pressed; [am|apply Ok_inj in E1; now subst].
  - destruct pressed; [|apply Ok_inj in E1; now subst]. bstep E1 mm Em. bstep E1 k2 E2. apply Ok_inj in E1. subst. am.
  - bstep E1 x Ex. pose proof (desc_at_T T k a x M Ex) as [X1 X2]. cbn [modest_desc] in Hd. destruct pressed.
    + bstep E1 k2 E2. apply Ok_inj in E1. subst. am.
    + bstep E1 k2 E2. cbv zeta in E1.
      assert (A : k_cfg (update_mods false k2 None 0) = k_cfg k /\ k_amacro (update_mods false k2 None 0) = None) by (am).
      destruct A as [A1 A2]. set (k3 := update_mods false k2 None 0) in *. clearbody k3.
      destruct (_ && _); [|apply Ok_inj in E1; now subst].
      assert (Y : may_start T x = false) by (destruct X1 as [->| ->]; [reflexivity|exact Hd]).
      assert (N : (k4 <- process_descriptor fuel k3 code x dl true time ;; process_descriptor fuel k4 code x dl false time) = Ok k1 -> starter T x = false -> k_amacro k1 = None).
      { intros E Hx. bstep E k4 E4. pose proof (pd_frame _ _ _ _ _ _ _ _ E4) as [F _].
        eapply IH; [exact E| |exact X2|discriminate|]. { now rewrite F, A1. }
        eapply IH; [exact E4| |exact X2|auto|exact A2]. now rewrite A1. }
      destruct x; try (apply (N E1); exact Y).
      bstep E1 mm Em. apply Ok_inj in E1. subst k1. am.
  - destruct pressed; [|apply Ok_inj in E1; now subst]. bstep E1 x Ex. eauto.
  - destruct pressed; [|apply Ok_inj in E1; now subst]. bstep E1 x Ex. eauto.
  - destruct pressed; [|apply Ok_inj in E1; now subst]. specialize (Hs eq_refl). apply orb_false_iff in Hs as [Ha Hb].
    bstep E1 x Ex. bstep E1 k2 E2. apply Ok_inj in E1. subst k1.
    pose proof (desc_at_T T k _ x M Ex) as [X1 X2].
    assert (Y : starts x = false) by (destruct X1 as [->| ->]; [reflexivity|destruct (_ <=? _)%Z; assumption]).
    assert (W : k_amacro k2 = None) by (eapply IH; [exact E2|exact M|exact X2|intros _; destruct x; try reflexivity; discriminate Y|exact Hn0]).
    unfold cache_replace_d. destruct (cache_find _ _ _); exact W.
  - destruct pressed; [|apply Ok_inj in E1; now subst]. bstep E1 x Ex. bstep E1 k2 E2. apply Ok_inj in E1. subst. am.
  - destruct pressed; [|apply Ok_inj in E1; now subst]. bstep E1 x Ex. bstep E1 y Ey. eauto.
Qed.

(* ---- the invariant ------------------------------------------------------------------------- *)
Definition holds_one (k : kbd) : Prop := exists e, In e (k_cache k) /\ ce_code e <> 0%N.
Lemma modest_closed T : closed (modest_desc T).
Proof. constructor; intros; exact I. Qed.
Lemma modest_all T c : modest T c -> cfg_all (modest_desc T) c.
Proof. intros [A B C D]. repeat split; auto. Qed.
Lemma evols_holds code k k' : evols True code k k' -> holds_one k -> holds_one k'.
Proof.
  unfold evols, holds_one. intros H. induction H as [|x y l l' Hx H IH]; intros [e [He Hc]]; [contradiction|]. destruct He as [->|He].
  - exists y. split; [now left|]. destruct Hx as [Hx _]. congruence.
  - destruct IH as [e' [A B]]; [eauto|]. exists e'. split; [now right|exact B].
Qed.
Lemma slot_none code : forall c i s, cache_slot c code i s = None -> forall e, In e c -> ce_code e <> 0%N.
Proof.
  induction c as [|x c IH]; intros i s H e He; [contradiction|]. cbn [cache_slot] in H. destruct (_ =? _)%N; [discriminate|].
  assert (X : forall c i s, cache_slot c code i (Some s) <> None).
  { clear. induction c as [|y c IH]; intros i s; cbn [cache_slot]; [discriminate|]. destruct (_ =? _)%N; [discriminate|]. destruct (_ =? _)%N; apply IH. }
  destruct (N.eqb_spec (ce_code x) 0) as [E|E]; [now apply X in H|]. destruct He as [<-|He]; [exact E|eauto].
Qed.
Lemma upd_in {A} (l : list A) : forall i x, i < length l -> In x (upd i x l).
Proof. induction l as [|y l IH]; intros [|i] x H; cbn [upd length] in *; try lia; [now left|right; apply IH; lia]. Qed.
Lemma cache_set_holds k code e k' : code <> 0%N -> cache_set k code (Some e) = Some k' -> holds_one k'.
Proof.
  intros Hc H. apply cache_set_spec in H as [i [e' [-> [Hi [_ ->]]]]]. eexists. split; [cbn [k_cache set_k_cache]; apply upd_in; exact Hi|]. exact Hc.
Qed.
Definition started (T : nat -> desc) (k : kbd) : Prop :=
  modest T (k_cfg k) /\ alld (modest_desc T) k /\ uniq (k_cache k) /\ k_cache k <> [] /\ (k_amacro k = None \/ holds_one k).
Lemma pd_holds fuel k code d dl pressed time k' : process_descriptor fuel k code d dl pressed time = Ok k' -> uniq (k_cache k) ->
  (holds_one k -> holds_one k') /\ (k_cache k <> [] -> k_cache k' <> []).
Proof.
  intros H U. apply (pd_evols True) in H as [H _]; auto. split; [now apply (evols_holds code)|].
  intros X Y. apply X. unfold evols in H. rewrite Y in H. now inversion H.
Qed.
Lemma cache_set_nonempty k code e k' : cache_set k code e = Some k' -> k_cache k <> [] -> k_cache k' <> [].
Proof.
  intros H X Y. apply cache_set_spec in H as [i [e' [-> [Hi [_ ->]]]]]. cbn [k_cache set_k_cache] in Y. apply (f_equal (@length centry)) in Y.
  rewrite upd_length in Y. cbn [length] in Y. lia.
Qed.
Lemma rest_started T k code pressed time k' : started T k -> rest_step k code pressed time = Ok k' -> started T k'.
Proof.
  intros (M & A & U & N & S0) H.
  assert (G1 : alld (modest_desc T) k') by (eapply rest_alld; eauto using modest_closed).
  assert (G2 : uniq (k_cache k')) by (eapply rest_uniq; eauto).
  assert (G3 : k_cfg k' = k_cfg k) by (pose proof (rest_frame _ _ _ _ _ H) as [F _]; exact F).
  split; [now rewrite G3|]. split; [exact G1|]. split; [exact G2|]. clear G1 G2 G3.
  unfold rest_step in H. bstep H k3 E3. bstep H k4 E4.
  assert (X3 : k_cache k3 = k_cache k /\ k_amacro k3 = k_amacro k /\ k_cfg k3 = k_cfg k).
  { split; [apply (expire_cp _ _ _ E3)|]. apply expire_ends in E3 as (X & _ & _ & _ & Y & _). auto. }
  destruct X3 as (C3 & A3 & F3).
  assert (X4 : k_cache k4 = k_cache k /\ k_cfg k4 = k_cfg k /\ (code <> 0%N -> k_amacro k4 = None) /\ (code = 0%N -> k_amacro k4 = k_amacro k)).
  { pose proof (run_macro_cp _ _ _ _ E4) as [_ Y]. pose proof (run_macro_frame _ _ _ _ E4) as [Z _]. split; [congruence|]. split; [congruence|].
    unfold run_active_macro in E4. destruct (k_amacro k3) as [m|] eqn:Em; [|apply Ok_inj in E4; subst; split; congruence].
    destruct (N.eqb_spec code 0) as [Ec|Ec]; cbn [negb] in E4.
    - split; [contradiction|]. intros _. rewrite <- A3. destruct (_ <=? _)%Z; [|apply Ok_inj in E4; subst; congruence]. bstep E4 mm E5. cbv zeta in E4. am.
    - apply Ok_inj in E4. subst k4. split; [intros _; am|contradiction]. }
  destruct X4 as (C4 & F4 & A4 & B4).
  assert (U4 : uniq (k_cache k4)) by now rewrite C4. assert (N4 : k_cache k4 <> []) by now rewrite C4.
  assert (Old : forall b, (code =? 0)%N = b -> k_amacro k4 = None \/ holds_one k4).
  { intros b Hb. destruct (N.eqb_spec code 0) as [Ec|Ec]; [|left; auto]. rewrite (B4 Ec). destruct S0 as [S0|S0]; [now left|right]. unfold holds_one. now rewrite C4. }
  specialize (Old _ eq_refl).
  unfold handle_key in H. destruct (N.eqb_spec code 0) as [Ec|Ec]; [apply Ok_inj in H; subst; split; auto|]. destruct pressed.
  - destruct (cache_get k4 code); [apply Ok_inj in H; subst; split; auto|].
    destruct (lookup_descriptor k4 code) as [d dl]. destruct (cache_set _ _ _) as [k5|] eqn:E; [|apply Ok_inj in H; subst; split; auto].
    pose proof (cache_set_holds _ _ _ _ Ec E) as X. pose proof (cache_set_nonempty _ _ _ _ E N4) as Y.
    apply pd_holds in H as [H1 H2]; [|eapply cache_set_uniq; eauto]. auto.
  - destruct (cache_get k4 code) as [i|] eqn:Eg; [|apply Ok_inj in H; subst; split; auto].
    destruct (cache_set _ _ _) as [k5|] eqn:E; [|apply Ok_inj in H; subst; split; auto].
    pose proof (cache_set_nonempty _ _ _ _ E N4) as Y. pose proof (cache_set_uniq _ _ _ _ E U4) as U5.
    pose proof (pd_holds _ _ _ _ _ _ _ _ H U5) as [_ H2]. split; [auto|]. left.
    apply cache_set_spec in E as [j [e' [-> _]]]. eapply pd_amacro; [exact H| | |discriminate|].
    + cbn [k_cfg set_k_cache]. rewrite F4. exact M.
    + destruct A as [_ [A _]]. apply A. unfold cache_nth. rewrite <- C4. apply in_map. apply nth_In. apply cache_find_at in Eg as [_ [Eg _]]. lia.
    + cbn [k_amacro set_k_cache]. auto.
Qed.
Lemma decide_started T k q a time k' : started T k -> p_code (k_pend k) <> 0%N -> a = p_a1 (k_pend k) \/ a = p_a2 (k_pend k) ->
  decide k (set_p_queue q (k_pend k)) a time = Ok k' -> started T k'.
Proof.
  intros (M & A & U & N & S0) Hp Ha H.
  assert (G1 : alld (modest_desc T) k').
  { pose proof A as [_ [_ [_ [B4 B5]]]]. eapply decide_alld; eauto using modest_closed. destruct Ha as [-> | ->]; auto. }
  assert (G2 : uniq (k_cache k')) by (eapply decide_uniq; eauto).
  unfold decide in H. cbv zeta in H.
  match type of H with do_desc ?X _ _ _ _ _ = _ => set (k2 := X) in * end.
  assert (X : k_cfg k2 = k_cfg k /\ uniq (k_cache k2) /\ k_cache k2 <> [] /\ holds_one k2).
  { subst k2. destruct (cache_set _ _ _) as [k3|] eqn:E.
    - split; [apply cache_set_spec in E as [j [e' [-> _]]]; reflexivity|]. split; [eapply cache_set_uniq; eauto|].
      split; [eapply cache_set_nonempty; eauto|]. eapply cache_set_holds; eauto.
    - split; [reflexivity|]. split; [exact U|]. split; [exact N|]. unfold cache_set in E. destruct (cache_slot _ _ _ _) eqn:E2; [discriminate|].
      pose proof (slot_none _ _ _ _ E2) as Y. unfold holds_one. cbn [k_cache set_k_pend] in *. destruct (k_cache k) as [|e l]; [congruence|]. exists e. split; [now left|]. apply Y. now left. }
  clearbody k2. destruct X as (X1 & X2 & X3 & X4). pose proof (pd_frame _ _ _ _ _ _ _ _ H) as [F _].
  apply pd_holds in H as [H1 H2]; auto. split; [now rewrite F, X1|]. split; [exact G1|]. split; [exact G2|]. auto.
Qed.
Lemma events_started T fuel k evs k' t : started T k -> kbd_process_events fuel k evs = Ok (k', t) -> started T k'.
Proof.
  intros S0 H. assert (G : IQ (started T) (fun _ => True) k'); [|apply G].
  eapply simple_events; [..|exact H]; auto.
  - intros k0 k1 (M & A & U & N & X) C. pose proof (chord_alld _ (modest_closed T) _ _ C A) as A1.
    destruct C as [q [acs [ts [-> _]]]]. repeat (split; [assumption|]). exact X.
  - intros. eapply decide_started; eauto.
  - intros. eapply rest_started; eauto.
  - split; auto. split; apply Forall_forall; auto.
  - apply Forall_forall; auto.
Qed.
Lemma reach_started T c k : reach (modest T) c k -> started T k.
Proof.
  intros H. induction H as [clk Hk Hg|k fuel evs k' t Hr IH H|k exp k' ok Hr IH H Hg|k k' Hr IH H].
  - split; [exact Hg|]. split; [|split; [apply uniq_zero|split; [discriminate|left; reflexivity]]].
    split; [now apply modest_all|]. cbn [new_keyboard k_cache k_achords k_pend p_a1 p_a2]. repeat split.
    + intros d Hd. apply in_map_iff in Hd as [e [<- Hd]]. apply repeat_spec in Hd. subst. exact I.
    + intros ac Hac. apply repeat_spec in Hac. subst. exact I.
  - eapply events_started; eauto.
  - apply kbd_eval_shape in H as [c' ->]. destruct IH as (M & [_ A] & IH). split; [exact Hg|]. split; [|exact IH]. split; [now apply modest_all|exact A].
  - destruct H; exact IH.
Qed.

(* ---- C88 ------------------------------------------------------------------------------------- *)
(* Whatever happened, a macro repeats only while the table of held keys has an entry. *)
Theorem C88_held : forall T c k, reach (modest T) c k -> none_held k -> k_amacro k = None.
Proof.
  intros T c k H Hn. apply reach_started in H as (_ & _ & _ & _ & [H|[e [He Hc]]]); [exact H|]. elim Hc. now apply Hn.
Qed.
(* So with every key up and nothing undecided, a keyboard left alone comes to rest. *)
Theorem C88_rests : forall T c t k d, reach (modest T) c k -> told c t k d -> none_held k -> idle k -> nlayers k <= MAX_LAYERS -> backed k ->
  exists n k' t', ticks n k d t k' 0%Z t'
    /\ exists new, k_out k' = new ++ k_out k /\ Forall ending new.
Proof.
  intros T c t k d Hr Ht Hn Hi Hl Hb. assert (Hs : settled k) by (split; [exact Hi|eapply C88_held; eauto]).
  destruct (C87_comes c t k d Ht Hs Hl Hb) as (n & k' & t' & A). exists n, k', t'. split; [exact A|].
  destruct (C87_bounded c n t k d k' 0%Z t' Ht Hs A) as (_ & _ & _ & [new [B [C _]]]). eauto.
Qed.
(* Neither macro2() nor an overloadi() with a macro may be the action of overload(). *)
Definition ex88_text : str := bs "[main]
a = overload(nav, overloadi(z, macro(x y), 100))
[nav]
b = left
".
Definition ex88 : config := cfg_of ex88_text.
Theorem C88_idle_refuted : config_parse ex88_text = Ok (Some ex88)
  /\ exists k, run_to ex88 k /\ none_held k /\ k_amacro k <> None.
Proof.
  split; [apply parsesb_ok; vm_compute; reflexivity|].
  destruct (after_evs_ok ex88 [D 30 500; U 30 520]%N 520 (fun k _ => none_heldb k && match k_amacro k with Some _ => true | None => false end)) as (k & d & H1 & _ & H3).
  { discriminate. } { repeat constructor; cbn; lia. } { vm_compute. reflexivity. }
  apply andb_true_iff in H3 as [A B]. exists k. split; [exact H1|]. split; [now apply none_heldb_ok|]. destruct (k_amacro k); [discriminate|discriminate B].
Qed.

(* a macro repeating in the middle of a history, and stopped by the release of its key *)
Definition modest_descb (c : config) (d : desc) : bool := match d with DOverload _ a => negb (may_start (nested_of c) (nested_of c a)) | _ => true end.
Lemma modestb_ok c : inv c -> cfg_allb (modest_descb c) c = true -> modest (nested_of c) c.
Proof.
  intros Hi H. assert (X : forall d, modest_descb c d = true -> modest_desc (nested_of c) d).
  { intros d. destruct d; cbn [modest_descb modest_desc]; rewrite ?negb_true_iff; auto. }
  apply (cfg_allb_ok _ _ _ Hi X) in H as [A1 [A2 A3]]. constructor; auto.
Qed.
Definition ex88b_text : str := bs "[main]
a = overload(nav, macro(x y))
e = overload(nav, overloadi(x, y, 100))
d = macro2(300, 50, macro(x y))
j+k = macro(z x)
c = overloadt(nav, macro(x y), 200)
[nav]
b = overloadi(z, macro(x y), 100)
".
Definition ex88b : config := cfg_of ex88b_text.
Lemma ex88b_parses : config_parse ex88b_text = Ok (Some ex88b).
Proof. apply parsesb_ok. vm_compute. reflexivity. Qed.
Lemma ex88b_modest : modest (nested_of ex88b) ex88b.
Proof. apply modestb_ok; [apply (config_parse_inv _ _ ex88b_parses)|]. vm_compute. reflexivity. Qed.
Example C88_example : exists k1 k2, reach (modest (nested_of ex88b)) ex88b k1 /\ k_amacro k1 <> None /\ ~ none_held k1
  /\ reach (modest (nested_of ex88b)) ex88b k2 /\ none_held k2 /\ 8 <= length (k_out k2).
Proof.
  destruct (after_evs_ok ex88b [D 30 500; U 30 520; D 32 600]%N 600 (fun k _ => negb (none_heldb k) && match k_amacro k with Some _ => true | None => false end)) as (k1 & d1 & H1 & _ & H3).
  { discriminate. } { repeat constructor; cbn; lia. } { vm_compute. reflexivity. }
  destruct (after_evs_ok ex88b [D 30 500; U 30 520; D 32 600; U 32 1200]%N 1200 (fun k _ => none_heldb k && (8 <=? length (k_out k)))) as (k2 & d2 & H4 & _ & H6).
  { discriminate. } { repeat constructor; cbn; lia. } { vm_compute. reflexivity. }
  apply andb_true_iff in H3 as [A B]. apply andb_true_iff in H6 as [C E]. exists k1, k2.
  assert (X : k_amacro k1 <> None) by (destruct (k_amacro k1); [discriminate|discriminate B]).
  assert (R1 : reach (modest (nested_of ex88b)) ex88b k1) by (apply run_to_reach; [apply ex88b_modest|exact H1]).
  split; [exact R1|]. split; [exact X|]. split; [intros Y; apply X; eapply C88_held; eauto|].
  split; [apply run_to_reach; [apply ex88b_modest|exact H4]|]. split; [now apply none_heldb_ok|now apply Nat.leb_le].
Qed.

(* With the table following the fingers (C25): once all physical keys are released, no macro
   is repeating. *)
Lemma neat_modest T K M tg c : neat T K M tg c -> modest T c.
Proof.
  intros H. pose proof (nt_tame _ _ _ _ _ H) as Ht.
  assert (X : forall d, tame_desc T K d -> neat_desc T M tg d -> modest_desc T d).
  { intros d. destruct d; cbn [tame_desc neat_desc modest_desc]; auto. intros [_ A] B. destruct (T a); cbn [is_overloadi is_macro may_start] in *; congruence. }
  constructor.
  - apply (tm_nested _ _ _ Ht).
  - intros i x. apply X; [apply (tm_keys _ _ _ Ht)|apply (nt_keys _ _ _ _ _ H)].
  - intros i ch Hc. apply X; [now apply (tm_chords _ _ _ Ht i)|now apply (nt_chords _ _ _ _ _ H i)].
  - intros d Hd. apply X; [now apply (tm_descs _ _ _ Ht)|now apply (nt_descs _ _ _ _ _ H)].
Qed.
Theorem C88_released : forall T K M tg n c k evs, fed (sound T K M tg n) c k evs -> hands_off evs -> k_amacro k = None.
Proof.
  intros T K M tg n c k evs Hf Hh. apply (C88_held T c k).
  - eapply reach_weaken; [|eapply fed_reach, Hf]. intros ? [X _]. eapply neat_modest; eauto.
  - eapply C25_none_held; eauto.
Qed.
(* a macro repeating with another key held, then both let go *)
Example C88_released_example : (exists k, run_to ex25_cfg k /\ k_amacro k <> None)
  /\ exists k evs, fed (sound_of ex25_cfg false) ex25_cfg k evs /\ hands_off evs /\ 3 <= length evs.
Proof.
  split.
  - destruct (after_evs_ok ex25_cfg [D 30 500; D 33 600]%N 600 (fun k _ => match k_amacro k with Some _ => true | None => false end)) as (k & d & H1 & _ & H3).
    { discriminate. } { repeat constructor; cbn; lia. } { vm_compute. reflexivity. }
    exists k. split; [exact H1|]. destruct (k_amacro k); [discriminate|discriminate H3].
  - destruct (endsb_ok (sound_of ex25_cfg false) ex25_cfg [[D 30 500; D 33 600; U 33 1400; U 30 1500]%N] (fun k => true) ex25_sound) as [k [H1 [H2 _]]].
    { vm_compute. reflexivity. }
    exists k. eexists. split; [exact H1|]. split; [exact H2|]. cbn. lia.
Qed.
(* a oneshot waiting with every key up *)
Lemma ex87b_modest : modest (nested_of ex87b) ex87b.
Proof. apply modestb_ok; [apply (config_parse_inv _ _ ex87b_parses)|]. vm_compute. reflexivity. Qed.
Example C88_rests_example : exists k, reach (modest (nested_of ex87b)) ex87b k /\ told ex87b 30 k 100 /\ none_held k /\ idle k /\ nlayers k <= MAX_LAYERS
  /\ backed k /\ oneshots k 6 = 1%N.
Proof.
  destruct (after_evs_ok ex87b [D 46 10; U 46 30]%N 30 (fun k d => none_heldb k && idleb k && (nlayers k <=? 8) && (d =? 100)%Z
     && forallb (fun i => (oneshots k i <=? l_active (k_ls k i))%N) (seq 0 8) && (oneshots k 6 =? 1)%N)) as (k & d & H1 & H2 & H3).
  { discriminate. } { repeat constructor; cbn; lia. } { vm_compute. reflexivity. }
  rewrite !andb_true_iff in H3. destruct H3 as [[[[[A B] C] E] F] G]. apply Nat.leb_le in C. apply Z.eqb_eq in E. subst d. exists k.
  split; [apply run_to_reach; [apply ex87b_modest|exact H1]|]. split; [exact H2|]. split; [now apply none_heldb_ok|]. split; [now apply idleb_ok|].
  split; [unfold MAX_LAYERS; lia|]. split; [|now apply N.eqb_eq].
  intros i Hi. pose proof (fresh_layers k _ C F i Hi) as X. cbv beta in X. now apply N.leb_le.
Qed.

Definition C88_all := (C88_held, C88_rests, C88_released, C88_released_example, C88_idle_refuted, C88_example, C88_rests_example).
Print Assumptions C88_all.
