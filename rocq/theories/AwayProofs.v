(* What happens outside of a keyboard does not reach it: two keyboards that differ only in
   the activation clock, in the stamps of their layers (with the same order) and in the
   rest of the scroll motion take the same steps. *)
From Verif Require Import Base Lib Keys Types MacroExec Kbd Config Engine ModsProofs Retime Outside.

(* ---- the relation ---------------------------------------------------------------------- *)
Definition lst_like (a b : lst) : Prop := l_active b = l_active a /\ l_toggled b = l_toggled a /\ l_depth b = l_depth a.
Record ord (ls ls' : nat -> lst) (c c' : Z) : Prop := mkOrd {
  o_same : forall i, lst_like (ls i) (ls' i);
  o_two : (2 <= c)%Z /\ (2 <= c')%Z;
  o_range : forall i, (0 <= l_time (ls i) < c)%Z /\ (0 <= l_time (ls' i) < c')%Z;
  o_le : forall i j, (l_time (ls i) <= l_time (ls j))%Z <-> (l_time (ls' i) <= l_time (ls' j))%Z;
  o_one : forall i, ((l_time (ls i) <= 1)%Z <-> (l_time (ls' i) <= 1)%Z) /\ ((1 <= l_time (ls i))%Z <-> (1 <= l_time (ls' i))%Z) }.
Definition ov (ls : nat -> lst) (c : Z) (s : scroll) (k : kbd) : kbd := set_k_scroll s (set_k_clock c (set_k_ls ls k)).
Definition sc_like (a b : scroll) : Prop := s_sens b = s_sens a /\ s_active b = s_active a.
Definition like (k k' : kbd) : Prop :=
  exists ls c s, k' = ov ls c s k /\ ord (k_ls k) ls (k_clock k) c /\ sc_like (k_scroll k) s.
Definition RR {A} (P : A -> A -> Prop) (r r' : res A) : Prop :=
  match r, r' with
  | Ok a, Ok b => P a b
  | Crash x, Crash y => x = y
  | UB, UB => True
  | NoFuel, NoFuel => True
  | _, _ => False
  end.
Definition likep {X} (a b : kbd * X) : Prop := like (fst a) (fst b) /\ snd b = snd a.

Lemma RR_bind {A B} (P : A -> A -> Prop) (Q : B -> B -> Prop) e e' h h' :
  RR P e e' -> (forall a a', P a a' -> RR Q (h a) (h' a')) -> RR Q (bind e h) (bind e' h').
Proof. intros H1 H2. destruct e, e'; cbn [RR bind] in *; try contradiction; auto. Qed.
Lemma RR_same {A} (r : res A) : RR eq r r. Proof. destruct r; cbn [RR]; auto. Qed.
Lemma RR_read {A B} (Q : B -> B -> Prop) (e e' : res A) h h' : e' = e -> (forall a, RR Q (h a) (h' a)) -> RR Q (bind e h) (bind e' h').
Proof. intros -> H. destruct e; cbn [bind RR]; auto. Qed.

Ltac op H := let ls := fresh "ls" in let c := fresh "cl" in let s := fresh "sc" in let Ho := fresh "Ho" in let Hs := fresh "Hs" in
  destruct H as (ls & c & s & -> & Ho & Hs).
Ltac frame := match goal with H : like _ _ |- like _ _ => op H; eexists; eexists; eexists; split; [reflexivity|split; eassumption] end.
Ltac rd := match goal with H : like _ _ |- _ => op H; reflexivity end.

Lemma like_cfg k k' : like k k' -> k_cfg k' = k_cfg k. Proof. intros H. rd. Qed.
Lemma like_ks k k' : like k k' -> k_ks k' = k_ks k. Proof. intros H. rd. Qed.
Lemma like_cache k k' : like k k' -> k_cache k' = k_cache k. Proof. intros H. rd. Qed.
Lemma like_pend k k' : like k k' -> k_pend k' = k_pend k. Proof. intros H. rd. Qed.
Lemma like_chord k k' : like k k' -> k_chord k' = k_chord k. Proof. intros H. rd. Qed.
Lemma like_achords k k' : like k k' -> k_achords k' = k_achords k. Proof. intros H. rd. Qed.
Lemma like_nlayers k k' : like k k' -> nlayers k' = nlayers k. Proof. intros H. rd. Qed.
Lemma like_layer_at k k' i : like k k' -> layer_at k' i = layer_at k i. Proof. intros H. rd. Qed.
Lemma like_macro_at k k' i : like k k' -> macro_at k' i = macro_at k i. Proof. intros H. rd. Qed.
Lemma like_cmd_at k k' i : like k k' -> cmd_at k' i = cmd_at k i. Proof. intros H. rd. Qed.
Lemma like_desc_at k k' i : like k k' -> desc_at k' i = desc_at k i. Proof. intros H. rd. Qed.
Lemma like_amacro k k' : like k k' -> k_amacro k' = k_amacro k. Proof. intros H. rd. Qed.
Lemma like_alayer k k' : like k k' -> k_amacro_layer k' = k_amacro_layer k. Proof. intros H. rd. Qed.
Lemma like_mto k k' : like k k' -> k_macro_to k' = k_macro_to k. Proof. intros H. rd. Qed.
Lemma like_repeat k k' : like k k' -> k_repeat k' = k_repeat k. Proof. intros H. rd. Qed.
Lemma like_oto k k' : like k k' -> k_oneshot_to k' = k_oneshot_to k. Proof. intros H. rd. Qed.
Lemma like_timeouts k k' : like k k' -> k_timeouts k' = k_timeouts k. Proof. intros H. rd. Qed.
Lemma like_last_code k k' : like k k' -> k_last_code k' = k_last_code k. Proof. intros H. rd. Qed.
Lemma like_latch k k' : like k k' -> k_latch k' = k_latch k. Proof. intros H. rd. Qed.
Lemma like_ovl k k' : like k k' -> k_ovl_start k' = k_ovl_start k. Proof. intros H. rd. Qed.
Lemma like_simple k k' : like k k' -> k_last_simple k' = k_last_simple k. Proof. intros H. rd. Qed.
Lemma like_orig k k' : like k k' -> k_orig k' = k_orig k. Proof. intros H. rd. Qed.
Lemma like_out k k' : like k k' -> k_out k' = k_out k. Proof. intros H. rd. Qed.
Lemma like_ls k k' i : like k k' -> lst_like (k_ls k i) (k_ls k' i).
Proof. intros H. op H. apply (o_same _ _ _ _ Ho). Qed.
Lemma like_active k k' i : like k k' -> is_active k' i = is_active k i.
Proof. intros H. unfold is_active. now destruct (like_ls k k' i H) as [-> _]. Qed.
Lemma like_scroll k k' : like k k' -> sc_like (k_scroll k) (k_scroll k').
Proof. intros H. op H. exact Hs. Qed.

Lemma like_set_cache v k k' : like k k' -> like (set_k_cache v k) (set_k_cache v k'). Proof. intros H. frame. Qed.
Lemma like_set_pend v k k' : like k k' -> like (set_k_pend v k) (set_k_pend v k'). Proof. intros H. frame. Qed.
Lemma like_set_chord v k k' : like k k' -> like (set_k_chord v k) (set_k_chord v k'). Proof. intros H. frame. Qed.
Lemma like_set_achords v k k' : like k k' -> like (set_k_achords v k) (set_k_achords v k'). Proof. intros H. frame. Qed.
Lemma like_set_amacro v k k' : like k k' -> like (set_k_amacro v k) (set_k_amacro v k'). Proof. intros H. frame. Qed.
Lemma like_set_alayer v k k' : like k k' -> like (set_k_amacro_layer v k) (set_k_amacro_layer v k'). Proof. intros H. frame. Qed.
Lemma like_set_mto v k k' : like k k' -> like (set_k_macro_to v k) (set_k_macro_to v k'). Proof. intros H. frame. Qed.
Lemma like_set_repeat v k k' : like k k' -> like (set_k_repeat v k) (set_k_repeat v k'). Proof. intros H. frame. Qed.
Lemma like_set_oto v k k' : like k k' -> like (set_k_oneshot_to v k) (set_k_oneshot_to v k'). Proof. intros H. frame. Qed.
Lemma like_set_timeouts v k k' : like k k' -> like (set_k_timeouts v k) (set_k_timeouts v k'). Proof. intros H. frame. Qed.
Lemma like_set_last_code v k k' : like k k' -> like (set_k_last_code v k) (set_k_last_code v k'). Proof. intros H. frame. Qed.
Lemma like_set_latch v k k' : like k k' -> like (set_k_latch v k) (set_k_latch v k'). Proof. intros H. frame. Qed.
Lemma like_set_ovl v k k' : like k k' -> like (set_k_ovl_start v k) (set_k_ovl_start v k'). Proof. intros H. frame. Qed.
Lemma like_set_simple v k k' : like k k' -> like (set_k_last_simple v k) (set_k_last_simple v k'). Proof. intros H. frame. Qed.
Lemma like_set_cfg v k k' : like k k' -> like (set_k_cfg v k) (set_k_cfg v k'). Proof. intros H. frame. Qed.
Lemma like_set_ks v k k' : like k k' -> like (set_k_ks v k) (set_k_ks v k'). Proof. intros H. frame. Qed.
Lemma like_set_last_out v k k' : like k k' -> like (set_k_last_out v k) (set_k_last_out v k'). Proof. intros H. frame. Qed.
Lemma like_emit o k k' : like k k' -> like (emit o k) (emit o k'). Proof. intros H. frame. Qed.
Lemma like_emits o k k' : like k k' -> like (emits o k) (emits o k'). Proof. intros H. frame. Qed.
Lemma like_set_scroll a b k k' : like k k' -> sc_like a b -> like (set_k_scroll a k) (set_k_scroll b k').
Proof. intros H Hab. op H. exists ls, cl, b. split; [reflexivity|]. split; [exact Ho|exact Hab]. Qed.

(* a layer state is replaced *)
Lemma ord_upd ls ls' c c' i l l' : ord ls ls' c c' -> lst_like l l' -> (0 <= l_time l < c)%Z -> (0 <= l_time l' < c')%Z ->
  (forall j, (l_time l <= l_time (ls j))%Z <-> (l_time l' <= l_time (ls' j))%Z) ->
  (forall j, (l_time (ls j) <= l_time l)%Z <-> (l_time (ls' j) <= l_time l')%Z) ->
  ((l_time l <= 1)%Z <-> (l_time l' <= 1)%Z) -> ((1 <= l_time l)%Z <-> (1 <= l_time l')%Z) ->
  ord (nupd ls i l) (nupd ls' i l') c c'.
Proof.
  intros [O1 O2 O3 O4 O5] Hl R1 R2 C1 C2 C3 C4. unfold nupd. split; auto; intros x.
  - destruct (Nat.eqb _ _); auto.
  - destruct (Nat.eqb _ _); auto.
  - intros y. destruct (Nat.eqb x i), (Nat.eqb y i); auto. split; intros _; lia.
  - destruct (Nat.eqb _ _); auto.
Qed.
Lemma like_lsi i l l' k k' : like k k' -> lst_like l l' -> l_time l = l_time (k_ls k i) -> l_time l' = l_time (k_ls k' i) ->
  like (set_lsi i l k) (set_lsi i l' k').
Proof.
  intros H Hl E E'. op H. exists (nupd ls i l'), cl, sc. split; [reflexivity|]. split; [|exact Hs].
  change (k_ls (ov ls cl sc k)) with ls in E'. cbn [set_lsi set_k_ls k_ls k_clock].
  apply ord_upd; auto; try (rewrite E, E'; apply Ho); try (intros j; rewrite E, E'; apply Ho); rewrite ?E, ?E'; apply (o_range _ _ _ _ Ho).
Qed.

(* ---- what does not touch the layers ------------------------------------------------------ *)
Lemma like_send c p k k' : like k k' -> like (send_key k c p) (send_key k' c p).
Proof.
  intros H. unfold send_key. destruct (_ || _); [exact H|].
  assert (H1 : like (if p then set_k_last_out c k else k) (if p then set_k_last_out c k' else k')) by (destruct p; [now apply like_set_last_out|exact H]).
  cbv zeta. set (a := if p then set_k_last_out c k else k) in *. set (b := if p then set_k_last_out c k' else k') in *. clearbody a b.
  rewrite (like_ks a b H1). destruct (Bool.eqb _ _); [exact H1|]. now apply like_emit, like_set_ks.
Qed.
Lemma like_clear_mod inh c k k' : like k k' -> like (clear_mod inh k c) (clear_mod inh k' c).
Proof.
  intros H. unfold clear_mod. cbv zeta. rewrite (like_cfg k k' H), (like_ks k k' H).
  replace (k_last_out k') with (k_last_out k) by (symmetry; rd). destruct (_ && _); [now apply like_send, like_send, like_send|now apply like_send].
Qed.
Lemma like_fold {B} (f : kbd -> B -> kbd) : (forall b k k', like k k' -> like (f k b) (f k' b)) ->
  forall l k k', like k k' -> like (fold_left f l k) (fold_left f l k').
Proof. intros Hf. induction l as [|b l IH]; intros k k' H; cbn [fold_left]; auto. Qed.
Lemma like_set_mods inh m k k' : like k k' -> like (set_mods inh k m) (set_mods inh k' m).
Proof.
  unfold set_mods. apply like_fold. intros [mask c] a b H. unfold set_mod1. rewrite (like_ks a b H).
  destruct (hasmod mask m); destruct (k_ks a c); auto using like_send, like_clear_mod.
Qed.
Lemma fold_ext_in {A B} (f g : A -> B -> A) : (forall a b, f a b = g a b) -> forall l a, fold_left f l a = fold_left g l a.
Proof. intros H. induction l as [|b l IH]; intros a; cbn [fold_left]; [reflexivity|]. rewrite H. apply IH. Qed.
Lemma like_update inh e m k k' : like k k' -> like (update_mods inh k e m) (update_mods inh k' e m).
Proof.
  intros H. unfold update_mods. replace (active_mods k' e m) with (active_mods k e m); [now apply like_set_mods|].
  unfold active_mods. rewrite (like_nlayers k k' H). apply fold_ext_in. intros a i. rewrite (like_active k k' i H), (like_layer_at k k' i H).
  replace (excluded k' e i) with (excluded k e i); [reflexivity|]. unfold excluded. destruct e as [x|]; [|reflexivity]. now rewrite (like_layer_at k k' x H).
Qed.
Lemma like_macro dl m k k' : like k k' -> like (execute_macro k dl m) (execute_macro k' dl m).
Proof.
  intros H. unfold execute_macro. rewrite (like_cfg k k' H).
  destruct m as [|[[] dt] [|]]; auto using like_send, like_update, like_emits.
Qed.
Lemma like_indicator k k' : like k k' -> indicator k' = indicator k.
Proof.
  intros H. unfold indicator. rewrite (like_nlayers k k' H). generalize (seq 1 (nlayers k - 1)) as l.
  induction l as [|i l IH]; cbn [existsb]; [reflexivity|]. now rewrite IH, (like_active k k' i H), (like_layer_at k k' i H).
Qed.
Lemma like_reset k k' : like k k' -> like (reset_keystate k) (reset_keystate k').
Proof.
  intros H0. unfold reset_keystate. generalize (seq 0 256) as l. intros l. revert H0. apply like_fold. intros i a b H. unfold reset_key. cbv zeta. rewrite (like_ks a b H). destruct (k_ks a _); [|exact H].
  now apply like_set_ks, like_emit.
Qed.
Local Opaque reset_keystate.
Lemma like_cstate s k k' : like k k' -> like (set_cstate s k) (set_cstate s k').
Proof. intros H. unfold set_cstate. rewrite (like_chord k k' H). now apply like_set_chord. Qed.
Lemma like_schedule t k k' : like k k' -> RR like (schedule_timeout k t) (schedule_timeout k' t).
Proof.
  intros H. unfold schedule_timeout. rewrite (like_timeouts k k' H). destruct (Nat.ltb _ _); [|reflexivity]. cbn [RR]. now apply like_set_timeouts.
Qed.
Lemma like_calc time k k' : like k k' -> likep (calculate_main_loop_timeout k time) (calculate_main_loop_timeout k' time).
Proof.
  intros H. unfold calculate_main_loop_timeout. cbv zeta. rewrite (like_timeouts k k' H). split; [|reflexivity]. cbn [fst]. now apply like_set_timeouts.
Qed.
Lemma like_cache_set c e k k' : like k k' ->
  match cache_set k c e, cache_set k' c e with Some a, Some b => like a b | None, None => True | _, _ => False end.
Proof.
  intros H. unfold cache_set. rewrite (like_cache k k' H). destruct (cache_slot _ _ _ _); [|exact Logic.I]. now apply like_set_cache.
Qed.
Lemma like_replace c d k k' : like k k' -> like (cache_replace_d k c d) (cache_replace_d k' c d).
Proof. intros H. unfold cache_replace_d. rewrite (like_cache k k' H). destruct (cache_find _ _ _); [|exact H]. now apply like_set_cache. Qed.

(* ---- layers -------------------------------------------------------------------------------- *)
Lemma chk_RR {Q : kbd -> kbd -> Prop} i h h' : RR Q (h tt) (h' tt) -> RR Q (bind (chk_layer i) h) (bind (chk_layer i) h').
Proof. unfold chk_layer. destruct (Nat.ltb _ _); cbn [bind RR]; auto. Qed.
Lemma like_deactivate i k k' : like k k' -> RR like (deactivate_layer k i) (deactivate_layer k' i).
Proof.
  intros H. unfold deactivate_layer. apply chk_RR. cbv zeta. destruct (like_ls k k' i H) as (E1 & E2 & E3). rewrite E1.
  destruct (_ =? 0)%N; [reflexivity|]. cbn [RR].
  assert (H1 : like (set_lsi i (set_l_active (l_active (k_ls k i) - 1) (k_ls k i)) k) (set_lsi i (set_l_active (l_active (k_ls k i) - 1) (k_ls k' i)) k')).
  { apply like_lsi; auto. split; [reflexivity|]. now split. }
  rewrite (like_indicator _ _ H1). now apply like_emit.
Qed.
Lemma like_activate c i k k' : like k k' -> RR like (activate_layer k c i) (activate_layer k' c i).
Proof.
  intros H. unfold activate_layer. apply chk_RR. cbv zeta. cbn [RR].
  match goal with |- like (emit (OLayer i true (indicator ?a)) _) (emit (OLayer i true (indicator ?b)) _) => assert (H1 : like a b) end.
  { op H. pose proof Ho as [O1 O2 O3 O4 O5]. exists (nupd ls i (mkLst cl ((l_active (ls i) + 1) mod 256) (l_toggled (ls i)) (l_depth (ls i)))), (cl + 1)%Z, sc.
    split; [reflexivity|]. split; [|exact Hs]. cbn [set_k_cache set_k_clock set_lsi set_k_ls k_ls k_clock].
    destruct (O1 i) as (E1 & E2 & E3). destruct O2 as [P1 P2].
    assert (O' : ord (k_ls k) ls (k_clock k + 1) (cl + 1)).
    { split; auto; [lia|]. intros j. specialize (O3 j). lia. }
    apply ord_upd; auto; cbn [l_time]; try (intros j; specialize (O3 j)); try lia.
    split; [|split]; cbn [l_active l_toggled l_depth]; congruence. }
  rewrite (like_indicator _ _ H1). now apply like_emit.
Qed.
Lemma like_drop i : forall n k k', like k k' -> RR like (drop_oneshots n k i) (drop_oneshots n k' i).
Proof.
  induction n as [|n IH]; intros k k' H; cbn [drop_oneshots]; [exact H|].
  eapply RR_bind; [now apply like_deactivate|]. intros a b Hab. cbv zeta. apply IH.
  destruct (like_ls a b i Hab) as (E1 & E2 & E3). rewrite E3. apply like_lsi; auto. split; [exact E1|split; [exact E2|reflexivity]].
Qed.
Lemma like_clear_layers : forall l k k', like k k' -> RR like (clear_oneshot_layers l k) (clear_oneshot_layers l k').
Proof.
  induction l as [|i l IH]; intros k k' H; cbn [clear_oneshot_layers]; [exact H|].
  destruct (like_ls k k' i H) as (E1 & E2 & E3). rewrite E3. eapply RR_bind; [now apply like_drop|]. auto.
Qed.
Lemma like_clear_oneshot k k' : like k k' -> RR like (clear_oneshot k) (clear_oneshot k').
Proof.
  intros H. unfold clear_oneshot. rewrite (like_nlayers k k' H). eapply RR_bind; [now apply like_clear_layers|]. intros a b Hab. cbn [RR].
  now apply like_set_oto, like_set_latch.
Qed.
Lemma like_clear_toggled : forall l k k', like k k' -> RR like (clear_toggled l k) (clear_toggled l k').
Proof.
  induction l as [|i l IH]; intros k k' H; cbn [clear_toggled]; [exact H|].
  eapply RR_bind; [|intros a b Hab; apply IH; exact Hab]. destruct (like_ls k k' i H) as (E1 & E2 & E3). rewrite E2, (like_layer_at k k' i H).
  destruct (_ && _); [|exact H]. apply like_deactivate. apply like_lsi; auto. split; [exact E1|split; [reflexivity|exact E3]].
Qed.
Lemma like_clear k k' : like k k' -> RR like (clear k) (clear k').
Proof.
  intros H. unfold clear. eapply RR_bind; [now apply like_clear_oneshot|]. intros a b Hab. rewrite (like_nlayers a b Hab).
  eapply RR_bind; [now apply like_clear_toggled|]. intros a1 b1 H1. cbn [RR]. now apply like_reset, like_set_amacro.
Qed.
Lemma like_setlayout i k k' : like k k' -> RR like (setlayout k i) (setlayout k' i).
Proof.
  intros H. unfold setlayout. apply chk_RR. eapply RR_bind; [now apply like_clear|]. intros a b Hab. cbv zeta. rewrite (like_nlayers a b Hab). cbn [RR].
  assert (H2 : like (fold_left drop_layout (seq 1 (nlayers a - 1)) a) (fold_left drop_layout (seq 1 (nlayers a - 1)) b)).
  { apply like_fold; [|exact Hab]. intros j x y Hxy. unfold drop_layout. rewrite (like_layer_at x y j Hxy). destruct (is_layout _); [|exact Hxy].
    destruct (like_ls x y j Hxy) as (E1 & E2 & E3). apply like_lsi; auto. split; [reflexivity|now split]. }
  set (x := fold_left drop_layout _ a) in *. set (y := fold_left drop_layout _ b) in *. clearbody x y.
  match goal with |- like (emit (OLayer i true (indicator ?a)) _) (emit (OLayer i true (indicator ?b)) _) => assert (H1 : like a b) end.
  { destruct (Nat.eqb i 0); [exact H2|]. op H2. pose proof Ho as [O1 O2 O3 O4 O5].
    exists (nupd ls i (set_l_active 1 (set_l_time 1 (ls i)))), cl, sc. split; [reflexivity|]. split; [|exact Hs].
    cbn [set_lsi set_k_ls k_ls k_clock]. destruct (O1 i) as (E1 & E2 & E3).
    apply ord_upd; auto; cbn [set_l_active set_l_time l_time]; try (intros j; apply O5); try lia.
    split; [reflexivity|]. split; assumption. }
  rewrite (like_indicator _ _ H1). now apply like_emit.
Qed.
Lemma like_swap_slot dl k k' : like k k' -> forall c i, swap_slot k' c dl i = swap_slot k c dl i.
Proof. intros H. induction c as [|e r IH]; intros i; cbn [swap_slot]; [reflexivity|]. now rewrite IH, (like_layer_at k k' _ H). Qed.
Lemma like_lsf (f : lst -> lst) i k k' : like k k' -> (forall l, l_time (f l) = l_time l) -> (forall a b, lst_like a b -> lst_like (f a) (f b)) ->
  like (set_lsi i (f (k_ls k i)) k) (set_lsi i (f (k_ls k' i)) k').
Proof. intros H Ht Hf. apply like_lsi; auto. apply Hf. now apply like_ls. Qed.
Lemma like_swap dl i k k' : like k k' -> RR like (do_swap k dl i) (do_swap k' dl i).
Proof.
  intros H. unfold do_swap. apply chk_RR. apply chk_RR. destruct (like_ls k k' dl H) as (E1 & E2 & E3). rewrite E2, E3, (like_cache k k' H), (like_swap_slot dl k k' H). clear E1 E2 E3.
  destruct (l_toggled (k_ls k dl)); [|destruct (negb _); [|destruct (swap_slot _ _ _ _) as [j|]; [|exact H]]].
  - eapply RR_bind; [now apply like_deactivate|]. intros a b Hab. cbv zeta. eapply RR_bind.
    + apply like_activate. apply (like_lsf (set_l_toggled false)); auto. intros x y (A & B & C). now repeat split.
    + intros x y Hxy. cbn [RR]. apply like_update. apply (like_lsf (set_l_toggled true)); auto. intros u v (A & B & C). now repeat split.
  - eapply RR_bind; [now apply like_deactivate|]. intros a b Hab. cbv zeta. eapply RR_bind.
    + apply like_activate. apply (like_lsf (fun l => set_l_depth (l_depth l - 1) l)); auto. intros x y (A & B & C). split; [exact A|split; [exact B|]]. cbn. now rewrite C.
    + intros x y Hxy. cbn [RR]. apply like_update. apply (like_lsf (fun l => set_l_depth ((l_depth l + 1) mod 256) l)); auto.
      intros u v (A & B & C). split; [exact A|split; [exact B|]]. cbn [set_l_depth l_depth]. now rewrite C.
  - cbv zeta. eapply RR_bind; [apply like_deactivate; now apply like_set_cache|]. intros a b Hab.
    eapply RR_bind; [now apply like_activate|]. intros x y Hxy. cbn [RR]. now apply like_update.
Qed.

(* ---- actions --------------------------------------------------------------------------------- *)
Lemma like_pre d pressed dl k k' : like k k' -> RR like (pre_macro d pressed dl k) (pre_macro d pressed dl k').
Proof.
  intros H. unfold pre_macro. destruct pressed; [|exact H]. destruct d; try exact H;
    (apply RR_read; [now apply like_macro_at|]); intros mm; cbn [RR]; now apply like_macro.
Qed.
Lemma like_key c m dl pressed time k k' : like k k' -> RR like (pd_key k c m dl pressed time) (pd_key k' c m dl pressed time).
Proof.
  intros H. unfold pd_key. eapply RR_bind with (P := like).
  - destruct pressed; cbv zeta.
    + rewrite (like_ks k k' H). apply like_clear_oneshot, like_send, like_update. destruct (k_ks k c); auto using like_send.
    + cbn [RR]. now apply like_update, like_send.
  - intros a b Hab. cbn [RR]. destruct (_ || _); auto using like_set_simple.
Qed.
Lemma like_layer c i pressed k k' : like k k' -> RR like (pd_layer k c i pressed) (pd_layer k' c i pressed).
Proof.
  intros H. unfold pd_layer. eapply RR_bind with (P := like).
  - destruct pressed; [now apply like_activate|now apply like_deactivate].
  - intros a b Hab. cbn [RR]. rewrite (like_last_code a b Hab). now apply like_update.
Qed.
Lemma like_depth_up i k k' : like k k' ->
  like (set_lsi i (set_l_depth ((l_depth (k_ls k i) + 1) mod 256) (k_ls k i)) k) (set_lsi i (set_l_depth ((l_depth (k_ls k' i) + 1) mod 256) (k_ls k' i)) k').
Proof.
  intros H. apply (like_lsf (fun l => set_l_depth ((l_depth l + 1) mod 256) l)); auto.
  intros u v (A & B & C). split; [exact A|split; [exact B|]]. cbn [set_l_depth l_depth]. now rewrite C.
Qed.
Lemma like_oneshot c i dl pressed time k k' : like k k' -> RR like (pd_oneshot k c i dl pressed time) (pd_oneshot k' c i dl pressed time).
Proof.
  intros H. unfold pd_oneshot. destruct pressed; [|rewrite (like_latch k k' H); destruct (k_latch k)].
  - eapply RR_bind; [now apply like_activate|]. intros a b Hab. cbn [RR]. now apply like_set_latch, like_update.
  - apply chk_RR. cbv zeta. rewrite (like_cfg k k' H). pose proof (like_depth_up i k k' H) as H1. destruct (_ =? 0)%Z; [exact H1|].
    apply like_schedule. now apply like_set_oto.
  - eapply RR_bind; [now apply like_deactivate|]. intros a b Hab. cbn [RR]. now apply like_update.
Qed.
Lemma like_pmacro m t r dl pressed time k k' : like k k' -> RR like (pd_macro k m t r dl pressed time) (pd_macro k' m t r dl pressed time).
Proof.
  intros H. unfold pd_macro. destruct pressed; [|exact H]. apply RR_read; [now apply like_macro_at|]. intros mm.
  eapply RR_bind; [apply like_clear_oneshot; now apply like_set_repeat|]. intros a b Hab. cbv zeta. apply like_schedule.
  now apply like_set_mto, like_set_alayer, like_set_amacro, like_macro.
Qed.
Lemma like_toggle c i pressed k k' : like k k' -> RR like (pd_toggle k c i pressed) (pd_toggle k' c i pressed).
Proof.
  intros H. unfold pd_toggle. destruct pressed; [|exact H]. apply chk_RR. cbv zeta.
  assert (H1 : like (set_lsi i (set_l_toggled (negb (l_toggled (k_ls k i))) (k_ls k i)) k) (set_lsi i (set_l_toggled (negb (l_toggled (k_ls k' i))) (k_ls k' i)) k')).
  { apply (like_lsf (fun l => set_l_toggled (negb (l_toggled l)) l)); auto. intros u v (A & B & C). split; [exact A|split; [|exact C]].
    cbn [set_l_toggled l_toggled]. now rewrite B. }
  destruct (like_ls k k' i H) as (_ & E2 & _). eapply RR_bind with (P := like).
  - replace (l_toggled (k_ls k' i)) with (l_toggled (k_ls k i)) at 1 by congruence.
    set (x := set_lsi i _ k) in *. set (y := set_lsi i _ k') in *. clearbody x y. destruct (l_toggled (k_ls k i)); [now apply like_deactivate|now apply like_activate].
  - intros a b Hab. now apply like_clear_oneshot, like_update.
Qed.
Lemma like_pswap i dl mm pressed k k' : like k k' -> RR like (pd_swap k i dl mm pressed) (pd_swap k' i dl mm pressed).
Proof.
  intros H. unfold pd_swap. destruct pressed.
  - eapply RR_bind; [now apply like_swap|]. intros a b Hab. cbn [RR]. destruct mm; auto using like_macro.
  - cbn [RR]. destruct mm as [[|[[] dt] [|]]|]; auto using like_update, like_send.
Qed.
Lemma like_pending code dl t b a1 a2 k k' : like k k' -> RR like (set_pending k code dl t b a1 a2) (set_pending k' code dl t b a1 a2).
Proof. intros H. unfold set_pending. cbv zeta. rewrite (like_pend k k' H). apply like_schedule. now apply like_set_pend. Qed.

Lemma like_pd : forall fuel code d dl (pressed : bool) time k k', like k k' ->
  RR like (process_descriptor fuel k code d dl pressed time) (process_descriptor fuel k' code d dl pressed time).
Proof.
  induction fuel as [|fuel IH]; intros code d dl pressed time k k' H; [exact Logic.I|].
  cbn [process_descriptor]. eapply RR_bind; [now apply like_pre|]. clear k k' H. intros k k' H. eapply RR_bind with (P := like).
  2: { intros a b Hab. cbn [RR]. destruct pressed; auto using like_set_last_code. }
  destruct d.
  - exact H.
  - now apply like_key.
  - now apply like_oneshot.
  - now apply like_oneshot.
  - now apply like_layer.
  - now apply like_pswap.
  - apply RR_read; [now apply like_macro_at|]. intros mm. now apply like_pswap.
  - now apply like_layer.
  - destruct pressed; [now apply like_setlayout|exact H].
  - destruct pressed; [now apply like_clear|exact H].
  - destruct pressed; [|exact H]. apply RR_read; [now apply like_macro_at|]. intros mm.
    eapply RR_bind; [now apply like_clear|]. intros a b Hab. cbn [RR]. now apply like_macro.
  - apply RR_read; [now apply like_desc_at|]. intros ac. destruct pressed.
    + eapply RR_bind; [apply like_activate; now apply like_set_ovl|]. intros x y Hxy. cbn [RR]. now apply like_update.
    + eapply RR_bind; [now apply like_deactivate|]. intros x y Hxy. cbv zeta. pose proof (like_update false None 0 x y Hxy) as H2.
      set (x2 := update_mods false x None 0) in *. set (y2 := update_mods false y None 0) in *. clearbody x2 y2.
      rewrite (like_last_code x2 y2 H2), (like_cfg x2 y2 H2), (like_ovl x2 y2 H2). destruct (_ && _); [|exact H2].
      assert (G : RR like (k3 <- process_descriptor fuel x2 code ac dl true time;; process_descriptor fuel k3 code ac dl false time)
                          (k3 <- process_descriptor fuel y2 code ac dl true time;; process_descriptor fuel k3 code ac dl false time)).
      { eapply RR_bind; [now apply IH|]. intros u v Huv. now apply IH. }
      destruct ac; try exact G. apply RR_read; [now apply like_macro_at|]. intros mm. cbn [RR]. now apply like_macro.
  - destruct pressed; [|exact H]. apply RR_read; [now apply like_desc_at|]. intros ac. now apply like_pending.
  - destruct pressed; [|exact H]. apply RR_read; [now apply like_desc_at|]. intros ac. now apply like_pending.
  - destruct pressed; [|exact H]. rewrite (like_simple k k' H). apply RR_read; [now apply like_desc_at|]. intros ac.
    eapply RR_bind; [now apply IH|]. intros x y Hxy. cbn [RR]. now apply like_replace.
  - now apply like_toggle.
  - now apply like_toggle.
  - rewrite (like_cfg k k' H). now apply like_pmacro.
  - now apply like_pmacro.
  - destruct pressed; [|exact H]. apply RR_read; [now apply like_cmd_at|]. intros cm.
    eapply RR_bind; [apply like_clear_oneshot; now apply like_emit|]. intros x y Hxy. cbn [RR]. now apply like_update.
  - destruct pressed; [|exact H]. apply RR_read; [now apply like_desc_at|]. intros x1. apply RR_read; [now apply like_desc_at|]. intros x2.
    now apply like_pending.
  - cbv zeta. cbn [RR]. destruct (like_scroll k k' H) as [S1 S2]. apply like_set_scroll; [exact H|]. destruct pressed; split; cbn; congruence.
  - cbn [RR]. destruct (like_scroll k k' H) as [S1 S2]. apply like_set_scroll; [exact H|]. split; reflexivity.
Qed.
Lemma like_do code d dl (pressed : bool) time k k' : like k k' -> RR like (do_desc k code d dl pressed time) (do_desc k' code d dl pressed time).
Proof. intros H. unfold do_desc, pd_fuel. rewrite (like_cfg k k' H). now apply like_pd. Qed.

(* ---- lookups ---------------------------------------------------------------------------------- *)
Lemma like_time k k' i j : like k k' -> (l_time (k_ls k' i) <=? l_time (k_ls k' j))%Z = (l_time (k_ls k i) <=? l_time (k_ls k j))%Z.
Proof.
  intros H. op H. pose proof (o_le _ _ _ _ Ho i j). change (k_ls (ov ls cl sc k)) with ls.
  destruct (Z.leb_spec (l_time (ls i)) (l_time (ls j))), (Z.leb_spec (l_time (k_ls k i)) (l_time (k_ls k j))); auto; lia.
Qed.
Lemma like_nonneg k k' i : like k k' -> (0 <= l_time (k_ls k i))%Z /\ (0 <= l_time (k_ls k' i))%Z.
Proof. intros H. op H. pose proof (o_range _ _ _ _ Ho i). change (k_ls (ov ls cl sc k)) with ls. lia. Qed.
Lemma like_lookup code k k' : like k k' -> lookup_descriptor k' code = lookup_descriptor k code.
Proof.
  intros H. unfold lookup_descriptor. rewrite (like_achords k k' H). destruct (is_chord_code code); [reflexivity|].
  rewrite (like_nlayers k k' H).
  assert (G : forall l m m' d dl, (forall j, (m' <=? l_time (k_ls k' j))%Z = (m <=? l_time (k_ls k j))%Z) ->
    let '(_, d1, dl1) := fold_left (lookup_step k code) l (m, d, dl) in
    let '(_, d2, dl2) := fold_left (lookup_step k' code) l (m', d, dl) in d2 = d1 /\ dl2 = dl1).
  { induction l as [|i l IH]; intros m m' d dl Hm; cbn [fold_left]; [auto|]. unfold lookup_step at 2 4.
    rewrite (like_active k k' i H), (like_layer_at k k' i H), Hm. destruct (is_active k i); [|now apply IH].
    destruct (_ && _); [|now apply IH]. apply IH. intros j. now apply like_time. }
  specialize (G (seq 0 (nlayers k)) 0%Z 0%Z DNone 0).
  destruct (fold_left (lookup_step k code) (seq 0 (nlayers k)) (0%Z, DNone, 0)) as [[m1 d1] dl1].
  destruct (fold_left (lookup_step k' code) (seq 0 (nlayers k)) (0%Z, DNone, 0)) as [[m2 d2] dl2].
  destruct G as [-> ->].
  { intros j. destruct (like_nonneg k k' j H). destruct (Z.leb_spec 0 (l_time (k_ls k j))), (Z.leb_spec 0 (l_time (k_ls k' j))); auto; lia. }
  replace (fold_left (composite_step k' code) (seq 0 (nlayers k)) (0, d1, dl1)) with (fold_left (composite_step k code) (seq 0 (nlayers k)) (0, d1, dl1)); [reflexivity|].
  apply fold_ext_in. intros [[mx d] dl] i. unfold composite_step. rewrite (like_layer_at k k' i H).
  replace (forallb (is_active k') (ly_const (layer_at k i))) with (forallb (is_active k) (ly_const (layer_at k i))); [reflexivity|].
  generalize (ly_const (layer_at k i)) as l. induction l as [|x l IH]; cbn [forallb]; [reflexivity|]. now rewrite IH, (like_active k k' x H).
Qed.
Lemma like_check k k' : like k k' -> likep (snd (check_chord_match k), fst (check_chord_match k)) (snd (check_chord_match k'), fst (check_chord_match k')).
Proof.
  intros H. unfold check_chord_match. rewrite (like_nlayers k k' H).
  assert (G : forall l m m' b p, (forall j, (m' <=? l_time (k_ls k' j))%Z = (m <=? l_time (k_ls k j))%Z) ->
    let '(b1, _, p1) := fold_left (check_layer1 k) l (b, m, p) in
    let '(b2, _, p2) := fold_left (check_layer1 k') l (b, m', p) in b2 = b1 /\ p2 = p1).
  { induction l as [|i l IH]; intros m m' b p Hm; cbn [fold_left]; [auto|]. unfold check_layer1 at 2 4.
    rewrite (like_active k k' i H), (like_layer_at k k' i H), (like_chord k k' H). destruct (is_active k i); [|now apply IH].
    set (cs := combine _ _). clearbody cs. revert m m' b p Hm. induction cs as [|[ci ch] cs IHc]; intros m m' b p Hm; cbn [fold_left]; [now apply IH|].
    cbn [check_chord1]. destruct (chord_event_match ch (h_queue (k_chord k))); try (now apply IHc).
    rewrite Hm. destruct (_ <=? _)%Z; [|now apply IHc]. apply IHc. intros j. now apply like_time. }
  specialize (G (seq 0 (nlayers k)) (-1)%Z (-1)%Z None false).
  destruct (fold_left (check_layer1 k) (seq 0 (nlayers k)) (None, (-1)%Z, false)) as [[b1 m1] p1].
  destruct (fold_left (check_layer1 k') (seq 0 (nlayers k)) (None, (-1)%Z, false)) as [[b2 m2] p2].
  destruct G as [-> ->].
  { intros j. destruct (like_nonneg k k' j H). destruct (Z.leb_spec (-1) (l_time (k_ls k j))), (Z.leb_spec (-1) (l_time (k_ls k' j))); auto; lia. }
  destruct b1 as [[li ci]|]; cbn [fst snd]; (split; [|reflexivity]); cbn [fst]; [|exact H]. rewrite (like_chord k k' H). now apply like_set_chord.
Qed.

(* ---- the stages of process_event ----------------------------------------------------------------- *)
Lemma like_enqueue code pressed time k k' : like k k' -> RR like (enqueue_chord_event k code pressed time) (enqueue_chord_event k' code pressed time).
Proof.
  intros H. unfold enqueue_chord_event. rewrite (like_chord k k' H). destruct (code =? 0)%N; [exact H|]. destruct (Nat.ltb _ _); [|reflexivity].
  cbn [RR]. now apply like_set_chord.
Qed.
Lemma like_expire time k k' : like k k' -> RR like (expire_oneshot k time) (expire_oneshot k' time).
Proof.
  intros H. unfold expire_oneshot. rewrite (like_oto k k' H). destruct (_ && _); [|exact H]. eapply RR_bind; [now apply like_clear_oneshot|].
  intros a b Hab. cbn [RR]. now apply like_update.
Qed.
Lemma like_run code time k k' : like k k' -> RR like (run_active_macro k code time) (run_active_macro k' code time).
Proof.
  intros H. unfold run_active_macro. rewrite (like_amacro k k' H). destruct (k_amacro k) as [m|]; [|exact H].
  destruct (negb _); [cbn [RR]; now apply like_update, like_set_amacro|]. rewrite (like_mto k k' H). destruct (_ <=? _)%Z; [|exact H].
  apply RR_read; [now apply like_macro_at|]. intros mm. cbv zeta. rewrite (like_alayer k k' H).
  pose proof (like_macro (k_amacro_layer k) mm k k' H) as H1. rewrite (like_repeat _ _ H1). apply like_schedule. now apply like_set_mto.
Qed.
Lemma like_handle code pressed time k k' : like k k' -> RR like (handle_key k code pressed time) (handle_key k' code pressed time).
Proof.
  intros H. unfold handle_key. destruct (code =? 0)%N; [exact H|].
  assert (E : cache_get k' code = cache_get k code) by (unfold cache_get; now rewrite (like_cache k k' H)).
  rewrite E. destruct pressed.
  - destruct (cache_get k code); [exact H|]. rewrite (like_lookup code k k' H). destruct (lookup_descriptor k code) as [x dl].
    pose proof (like_cache_set code (Some (mkCe 0 x dl 0)) k k' H) as H1.
    destruct (cache_set k code _), (cache_set k' code _); try contradiction; [now apply like_do|exact H].
  - destruct (cache_get k code) as [i|]; [|exact H]. cbv zeta.
    assert (En : cache_nth k' i = cache_nth k i) by (unfold cache_nth; now rewrite (like_cache k k' H)).
    rewrite En. pose proof (like_cache_set code None k k' H) as H1.
    destruct (cache_set k code _), (cache_set k' code _); try contradiction; [now apply like_do|exact H].
Qed.
Lemma like_rest code pressed time k k' : like k k' -> RR like (rest_step k code pressed time) (rest_step k' code pressed time).
Proof.
  intros H. unfold rest_step. eapply RR_bind; [now apply like_expire|]. intros a b Hab.
  eapply RR_bind; [now apply like_run|]. intros a' b' Hab'. now apply like_handle.
Qed.
Lemma like_decide p a time k k' : like k k' -> RR like (decide k p a time) (decide k' p a time).
Proof.
  intros H. unfold decide. cbv zeta. pose proof (like_set_pend (set_p_code 0%N (set_p_queue [] p)) k k' H) as H1.
  set (x := set_k_pend _ k) in *. set (y := set_k_pend _ k') in *. clearbody x y.
  pose proof (like_cache_set (p_code p) (Some (mkCe 0 a (p_dl p) 0)) x y H1) as H2.
  destruct (cache_set x _ _), (cache_set y _ _); try contradiction; now apply like_do.
Qed.
Lemma like_pplan code pressed time k k' : like k k' -> RR likep (pending_plan k code pressed time) (pending_plan k' code pressed time).
Proof.
  intros H. unfold pending_plan. cbv zeta. rewrite (like_pend k k' H). destruct (_ =? 0)%N; [now split|].
  destruct (_ && _); [reflexivity|]. destruct (_ && _); [now split|]. destruct (has_op _).
  - eapply RR_bind; [now apply like_decide|]. intros a b Hab. now split.
  - split; [|reflexivity]. now apply like_set_pend.
Qed.
Lemma like_resolve k k' : like k k' -> RR likep (resolve_plan k) (resolve_plan k').
Proof.
  intros H. unfold resolve_plan. cbv zeta. pose proof (like_cstate CsResolving k k' H) as H1.
  set (x := set_cstate _ k) in *. set (y := set_cstate _ k') in *. clearbody x y. rewrite (like_chord x y H1), (like_achords x y H1).
  destruct (h_match _) as [p|]; [|now split]. apply RR_read; [op H1; reflexivity|]. intros ch. destruct (free_chord _ _) as [i|]; [|reflexivity].
  split; [|reflexivity]. now apply like_set_achords.
Qed.
Lemma like_abort k k' : like k k' -> RR likep (abort_plan k) (abort_plan k').
Proof. intros H. unfold abort_plan. rewrite (like_chord k k' H). apply like_resolve. now apply like_set_chord. Qed.
Lemma like_sched_plan t pl (f : kbd -> kbd) k k' : (forall a b, like a b -> like (f a) (f b)) -> like k k' ->
  RR likep (k2 <- schedule_timeout k t ;; Ok (f k2, pl : cplan)) (k2 <- schedule_timeout k' t ;; Ok (f k2, pl)).
Proof. intros Hf H. eapply RR_bind; [now apply like_schedule|]. intros a b Hab. split; [now apply Hf|reflexivity]. Qed.
Lemma like_matched r time k k' : like k k' -> RR likep (matched_plan k r time) (matched_plan k' r time).
Proof.
  intros H. unfold matched_plan. cbv zeta. rewrite (like_chord k k' H), (like_cfg k k' H).
  pose proof (like_set_chord (set_h_last time (k_chord k)) k k' H) as H1.
  destruct r; try (destruct (_ =? 0)%Z; [now apply like_resolve|]); apply (like_sched_plan _ _ (fun x => x)); auto using like_cstate.
Qed.
Lemma like_cplan code pressed time k k' : like k k' -> RR likep (chord_plan k code pressed time) (chord_plan k' code pressed time).
Proof.
  intros H. unfold chord_plan. cbv zeta. rewrite (like_achords k k' H), (like_chord k k' H), (like_cfg k k' H).
  destruct (if negb (code =? 0)%N && negb pressed then chord_of_key (k_achords k) code 0 else None) as [i|].
  { unfold chord_up. cbv zeta. rewrite (like_achords k k' H). split; [|reflexivity]. now apply like_set_achords. }
  destruct (h_state (k_chord k)).
  - now split.
  - eapply RR_bind; [apply like_enqueue; now apply like_set_chord|]. intros a b Hab. pose proof (like_check a b Hab) as [H1 H2].
    destruct (check_chord_match a) as [r x], (check_chord_match b) as [r' y]. cbn [fst snd] in *. subst r'.
    destruct r; [now split|now apply like_matched..].
  - destruct (code =? 0)%N.
    + destruct (_ <=? _)%Z; [|now split]. destruct (h_match _); [|now apply like_abort]. destruct (0 <? _)%Z; [|now apply like_resolve].
      apply (like_sched_plan _ _ (set_cstate CsHold)); auto using like_cstate.
    + eapply RR_bind; [now apply like_enqueue|]. intros a b Hab. destruct (negb pressed); [now apply like_abort|].
      pose proof (like_check a b Hab) as [H1 H2].
      destruct (check_chord_match a) as [r x], (check_chord_match b) as [r' y]. cbn [fst snd] in *. subst r'.
      destruct r; [now apply like_abort|now apply like_matched..].
  - destruct (code =? 0)%N.
    + destruct (_ <=? _)%Z; [now apply like_resolve|now split].
    + eapply RR_bind; [now apply like_enqueue|]. intros a b Hab. destruct (negb pressed); [|now split].
      rewrite (like_chord a b Hab). destruct (h_match _) as [p|]; [|exact Logic.I]. apply RR_read; [op Hab; reflexivity|].
      intros ch. destruct (in_keys _ _); [now apply like_abort|now split].
Qed.

(* ---- events ------------------------------------------------------------------------------------- *)
Definition same_pe (pe : pe_t) : Prop := forall code pressed time k k', like k k' -> RR likep (pe k code pressed time) (pe k' code pressed time).
Lemma like_loop pe : same_pe pe -> forall fuel k k' evs t ts, like k k' -> RR likep (pe_loop pe fuel k evs t ts) (pe_loop pe fuel k' evs t ts).
Proof.
  intros Hpe. induction fuel as [|fuel IH]; intros k k' evs t ts H; destruct evs as [|e rest]; cbn [pe_loop]; try (now split).
  destruct (_ && _); (eapply RR_bind; [now apply Hpe|]); intros [a ta] [b tb] [Hab Ht]; cbn [fst snd] in *; subst tb; now apply IH.
Qed.
Lemma like_event : forall fuel, same_pe (process_event fuel).
Proof.
  induction fuel as [|fuel IH]; intros code pressed time k k' H; [exact Logic.I|].
  cbn [process_event]. rewrite !process_event_plan. pose proof (like_loop _ IH fuel) as HL.
  eapply RR_bind with (P := likep).
  { eapply RR_bind; [now apply like_cplan|]. intros [a pl] [b pl'] [Hab Hp]. cbn [fst snd] in *. subst pl'.
    destruct pl as [| |i|press rest]; cbn [run_plan]; [now split|now split| |].
    - eapply RR_bind; [now apply IH|]. intros [x tx] [y ty] [Hxy _]. cbn [fst snd] in *. now split.
    - eapply RR_bind with (P := like).
      { destruct press as [i|]; [|exact Hab]. rewrite (like_chord a b Hab). eapply RR_bind; [now apply IH|]. intros [x tx] [y ty] [Hxy _]. exact Hxy. }
      intros x y Hxy. destruct rest as [evs|]; [|exact Logic.I]. eapply RR_bind; [now apply HL|]. intros [u tu] [v tv] [Huv _]. cbn [fst snd] in *.
      split; [now apply like_cstate|reflexivity]. }
  intros [a x] [b y] [Hab Hx]. cbn [fst snd] in *. subst y. destruct x; [now apply like_calc|].
  unfold after_chord. eapply RR_bind with (P := likep).
  { eapply RR_bind; [now apply like_pplan|]. intros [c pl] [e pl'] [Hce Hp]. cbn [fst snd] in *. subst pl'.
    destruct pl as [| |evs]; cbn [run_pplan]; [now split|now split|]. eapply RR_bind; [now apply HL|]. intros [u tu] [v tv] [Huv _]. cbn [fst snd] in *.
    now split. }
  intros [c x] [e y] [Hce Hx]. cbn [fst snd] in *. subst y. destruct x; [now apply like_calc|].
  eapply RR_bind; [now apply like_rest|]. intros u v Huv. now apply like_calc.
Qed.
Lemma like_events fuel evs k k' : like k k' -> RR likep (kbd_process_events fuel k evs) (kbd_process_events fuel k' evs).
Proof. intros H. apply like_loop; auto using like_event. Qed.
Lemma like_eval exp k k' : like k k' -> RR likep (kbd_eval k exp) (kbd_eval k' exp).
Proof.
  intros H. unfold kbd_eval. rewrite (like_cfg k k' H), (like_orig k k' H). destruct (str_eqb _ _); [split; [now apply like_set_cfg|reflexivity]|].
  destruct (config_add_entry _ _) as [[c' ok]| | |]; cbn [bind RR]; auto. split; [now apply like_set_cfg|reflexivity].
Qed.

(* ---- what happens outside -------------------------------------------------------------------- *)
Lemma like_sym k k' : like k k' -> like k' k.
Proof.
  intros H. op H. exists (k_ls k), (k_clock k), (k_scroll k). split; [destruct k; reflexivity|]. destruct Ho as [O1 [O2 O2'] O3 O4 O5]. split.
  - split; cbn [ov set_k_scroll set_k_clock set_k_ls k_ls k_clock]; auto.
    + intros i. destruct (O1 i) as (A & B & C). repeat split; congruence.
    + intros i. destruct (O3 i). auto.
    + intros i j. symmetry. apply O4.
    + intros i. destruct (O5 i) as [A B]. split; symmetry; assumption.
  - destruct Hs. split; cbn [ov set_k_scroll k_scroll]; congruence.
Qed.
Lemma like_outside k k' k1 : like k k' -> outside k k1 -> like k1 k'.
Proof.
  intros H O. op H. destruct Ho as [O1 [O2 O2'] O3 O4 O5]. destruct O.
  - exists ls, cl, sc. split; [destruct k; reflexivity|]. split; [|exact Hs]. split; auto; cbn [set_k_clock k_clock k_ls]; [lia|].
    intros i. specialize (O3 i). lia.
  - exists ls, cl, sc. split; [destruct k; reflexivity|]. split; [|exact Hs]. split; auto.
Qed.
