(* C44: unbound keys pass through. *)
From Verif Require Import Base Lib Types Keys MacroExec Kbd Str MacroParse Config Match Device Daemon SpecDaemon
  DaemonProofs SpecMods SpecLookup SpecPlain ModsProofs LookupProofs CacheProofs PlainProofs SpecPass Hist BindProofs.
Local Open Scope nat_scope.

(* ---- codes ------------------------------------------------------------------------ *)
Lemma assoc_none l c : forallb (fun '(a, _) => negb (a =? c)%N) l = true -> assoc l c = None.
Proof.
  induction l as [|[a b] l IH]; cbn [forallb assoc]; auto. intros H. apply andb_true_iff in H as [H1 H2].
  apply negb_true_iff in H1. rewrite H1. auto.
Qed.
Lemma inside_low c : (c < 256)%N -> inside c = c.
Proof.
  intros H. unfold inside. destruct c as [|q]; auto.
  do 10 (destruct q as [q|q|]; try reflexivity; try (exfalso; lia)).
Qed.
Lemma plain_code_ok c : plain_code c ->
  read_code c = Some (inside c) /\ (inside c < 256)%N /\ physical (inside c) /\ printable (inside c)
  /\ ~ In (inside c) [148; 149; 202; 203]%N
  /\ forall z, write_key_event (inside c) z = (existsb (N.eqb c) buttons, mkIev 1 c z).
Proof.
  assert (P : forall x, (forall bit, ~ is_modifier bit x) -> x <> K_NOOP -> x <> K_EXTERNAL_MOUSE -> printable x) by (repeat split; auto).
  assert (M : forall x, ~ In x [56; 125; 42; 29; 100]%N -> forall bit, ~ is_modifier bit x).
  { intros x H bit Hm. apply H. destruct Hm; cbn [In]; auto 10. }
  intros [H|[H|(H1 & H2 & H3)]].
  - unfold buttons in H. cbn [In] in H.
    destruct H as [<-|[<-|[<-|[<-|[<-|[<-|[<-|[]]]]]]]]; (split; [reflexivity|]); (split; [reflexivity|]);
      (split; [split; [discriminate|intros [A B]; now vm_compute in A]|]);
      (split; [apply P; [apply M; cbn; intuition discriminate|discriminate|discriminate]|]);
      (split; [cbn; intuition discriminate|reflexivity]).
  - unfold renamed in H. cbn [In] in H.
    destruct H as [<-|[<-|[]]]; (split; [reflexivity|]); (split; [reflexivity|]);
      (split; [split; [discriminate|intros [A B]; now vm_compute in A]|]);
      (split; [apply P; [apply M; cbn; intuition discriminate|discriminate|discriminate]|]);
      (split; [cbn; intuition discriminate|reflexivity]).
  - rewrite (inside_low c H1). unfold internal in H2. cbn [In] in H2.
    split; [unfold read_code; apply N.ltb_lt in H1; now rewrite H1|]. split; [exact H1|].
    unfold physical, printable, K_CHORD_1, K_CHORD_MAX, K_NOOP, K_EXTERNAL_MOUSE.
    split; [split; lia|]. split; [repeat split; auto; lia|].
    split; [cbn [In]; lia|]. intros z. unfold write_key_event.
    rewrite assoc_none.
    2:{ unfold button_codes. cbn [forallb]. rewrite !andb_true_iff, !negb_true_iff, !N.eqb_neq. lia. }
    replace (c =? 177)%N with false by lia. replace (c =? 222)%N with false by lia.
    replace (existsb (N.eqb c) buttons) with false; auto. symmetry. apply not_true_is_false. intros X.
    apply existsb_exists in X as [y [Hy Ey]]. apply N.eqb_eq in Ey. subst y. unfold buttons in Hy. cbn [In] in Hy. lia.
Qed.
Lemma inside_inj a b : plain_code a -> plain_code b -> inside a = inside b -> a = b.
Proof.
  intros A B E. apply plain_code_ok in A as (_ & _ & _ & _ & _ & A). apply plain_code_ok in B as (_ & _ & _ & _ & _ & B).
  specialize (A 0%Z). specialize (B 0%Z). rewrite E, B in A. now injection A.
Qed.

(* ---- one event in the engine -------------------------------------------------------- *)
Section Pass.
Variable c : config.
Let k0 := new_keyboard c 1.
Hypothesis H_mods : forall bit, ~ standing k0 bit.
Definition struck (x : N) : Prop := exists e, plain_code e /\ x = inside e /\ left_alone k0 x.

Lemma struck_physical x : struck x -> physical x.
Proof. intros [e [H [-> _]]]. apply (plain_code_ok e H). Qed.
Lemma struck_unchorded x : struck x -> unchorded k0 x.
Proof. intros [e [H [-> H1]]]. apply H1. Qed.
Lemma struck_plain x : struck x -> exists o m dl, resolves k0 x (DKey o m) dl.
Proof. intros [e [H [-> H1]]]. exists (inside e), 0%N, 0. apply H1. Qed.
Lemma struck_self x : struck x -> resolves k0 x (DKey x 0) 0.
Proof. intros [e [H [-> H1]]]. apply H1. Qed.
Lemma struck_out o : outkey k0 struck o -> printable o.
Proof.
  intros [x [m [dl [Hx H]]]]. destruct (resolves_unique _ _ _ _ _ _ H (struck_self x Hx)) as [E _].
  injection E as -> _. destruct Hx as [e [He [-> _]]]. apply (plain_code_ok e He).
Qed.
Lemma new_ls k i : k = k0 -> (0 <= l_time (k_ls k i))%Z /\ l_depth (k_ls k i) = 0%N.
Proof.
  intros ->. unfold k0, new_keyboard. cbn [k_ls].
  destruct (c_default_layout c); [|destruct (find_layout _ _ _)]; unfold nupd;
    repeat destruct (Nat.eqb _ _); cbn; lia.
Qed.
Let H_t : forall i, (0 <= l_time (k_ls k0 i))%Z := fun i => proj1 (new_ls k0 i eq_refl).
Let H_d : forall i, i < nlayers k0 -> l_depth (k_ls k0 i) = 0%N := fun i _ => proj2 (new_ls k0 i eq_refl).
Definition n16 : nat := CACHE_SIZE.

Record P (held : list N) (k : kbd) : Prop := mkP {
  p_j : J k0 struck n16 held k;
  p_down : forall x, struck x -> (host_down (k_out k) x = true <-> In x held);
  p_mods : forall bit mc, is_modifier bit mc -> host_down (k_out k) mc = false }.

Lemma p_clock held k t : P held k -> P held (set_k_clock t k).
Proof. intros [[A1 A2 A3 A4 A5 A6 A7 A8 A9 A10 A11 A12] B C]. split; auto. constructor; auto. Qed.
Lemma p_new clk : P [] (new_keyboard c clk).
Proof.
  split.
  - constructor; auto; try reflexivity.
    + split; reflexivity.
    + intros i j Hi Hj _ Hne. destruct Hne. unfold new_keyboard. cbn [k_cache]. now rewrite nth_repeat.
    + intros x. split; [intros []|]. intros [Hs [e [He Ee]]]. unfold new_keyboard in He. cbn [k_cache] in He.
      apply repeat_spec in He. subst e. cbn in Ee. subst x. apply struck_physical in Hs as [Hs _]. now destruct Hs.
    + intros e He Hs. unfold new_keyboard in He. cbn [k_cache] in He. apply repeat_spec in He. subst e.
      apply struck_physical in Hs as [Hs _]. now destruct Hs.
    + constructor.
  - intros x _. split; [discriminate|intros []].
  - reflexivity.
Qed.
Lemma one_event_eq f k e : kbd_process_events (S (S f)) k [e] = process_event (S (S f)) k (ev_code e) (ev_pressed e) (ev_time e).
Proof.
  unfold kbd_process_events. cbn [pe_loop]. change (0 <? 0)%Z with false. cbn [andb].
  destruct (process_event (S (S f)) _ _ _ _) as [[k1 t1]| | |]; reflexivity.
Qed.

Definition effect (held : list N) (x : N) (p : bool) : list oev * list N :=
  if p then if in_dec N.eq_dec x held then ([], held) else if length held <? n16 then ([OKey x true], x :: held) else ([], held)
  else if in_dec N.eq_dec x held then ([OKey x false], remove N.eq_dec x held) else ([], held).
Lemma not_wanted bit : ~ wanted k0 0 0 bit.
Proof. intros [H|(i & H1 & _ & H2)]; [unfold in_set in H; now rewrite N.land_0_r in H|]. apply (H_mods bit). exists i. auto. Qed.

Lemma p_event f held k x p t : P held k -> struck x ->
  exists k' d, kbd_process_events (S (S f)) k [mkKev x p t] = Ok (k', d)
    /\ k_out k' = fst (effect held x p) ++ k_out k /\ P (snd (effect held x p)) k'.
Proof.
  intros [HJ Hd Hm] Hs. rewrite one_event_eq. cbn [ev_code ev_pressed ev_time].
  assert (Hx : forall bit, ~ is_modifier bit x) by (destruct Hs as [e [He [-> _]]]; apply (plain_code_ok e He)).
  assert (Hself := struck_self x Hs).
  pose proof (plain_ignored k0 struck n16 H_t H_d struck_physical struck_unchorded struck_plain struck_out (S f) held k x p t HJ Hs) as HI.
  assert (IG : (if p then In x held \/ n16 <= length held else ~ In x held) ->
     exists k' d, process_event (S (S f)) k x p t = Ok (k', d) /\ k_out k' = k_out k /\ P held k').
  { intros X. destruct (HI X) as (k' & d & E & HJ' & Eo). exists k', d. split; [exact E|]. split; [exact Eo|].
    split; auto; rewrite Eo; auto. }
  unfold effect. destruct p; destruct (in_dec N.eq_dec x held) as [Hin|Hin]; try (apply IG; auto; fail).
  - destruct (Nat.ltb_spec (length held) n16) as [L|L]; [|apply IG; auto].
    destruct (plain_press k0 struck n16 H_t H_d
                struck_physical struck_unchorded struck_plain struck_out (S f) held k x t x 0%N 0 HJ Hs Hin L Hself)
      as (mods & k' & d & E & HJ' & Eo & _ & _ & Hmin).
    assert (El : lifted (k_out k) x = []).
    { unfold lifted. destruct (host_down (k_out k) x) eqn:Eh; auto. now apply Hd in Eh. }
    rewrite El in *. cbn [app] in *. rewrite Hmin in Eo.
    2:{ intros bit mc Hmc. rewrite (Hm bit mc Hmc). split; [discriminate|]. intros W. now apply not_wanted in W. }
    exists k', d. split; [exact E|]. split; [exact Eo|]. cbn [snd]. split; auto.
    + intros y Hy. rewrite Eo. cbn [host_down app In]. destruct (N.eqb_spec x y) as [->|Ne]; [tauto|].
      rewrite (Hd y Hy). intuition congruence.
    + intros bit mc Hmc. rewrite Eo. cbn [host_down app]. destruct (N.eqb_spec x mc) as [->|Ne]; [now apply Hx in Hmc|eauto].
  - destruct (plain_release k0 struck n16 H_t H_d struck_physical struck_unchorded struck_plain struck_out (S f) held k x t x 0%N 0 HJ Hs Hin Hself)
      as (mods & k' & d & E & HJ' & Eo & _ & _ & Hmin).
    assert (El : lifted (k_out k) x = [OKey x false]) by (unfold lifted; now rewrite (proj2 (Hd x Hs))).
    rewrite El in *. cbn [app] in *. rewrite Hmin in Eo.
    2:{ intros bit mc Hmc. cbn [host_down]. destruct (N.eqb_spec x mc) as [->|Ne]; [now apply Hx in Hmc|].
        rewrite (Hm bit mc Hmc). split; [discriminate|]. intros W. now apply H_mods in W. }
    exists k', d. split; [exact E|]. split; [exact Eo|]. cbn [snd]. split; auto.
    + intros y Hy. rewrite Eo. cbn [host_down app]. destruct (N.eqb_spec x y) as [->|Ne].
      * split; [discriminate|]. intros Hr. now apply remove_In in Hr.
      * rewrite (Hd y Hy). split; [intros Hi; now apply in_in_remove; auto|]. intros Hi. now apply in_remove in Hi.
    + intros bit mc Hmc. rewrite Eo. cbn [host_down app]. destruct (N.eqb_spec x mc) as [->|Ne]; [now apply Hx in Hmc|eauto].
Qed.
Lemma p_tick f held k t : P held k ->
  exists k' d, kbd_process_events (S (S f)) k [mkKev 0 false t] = Ok (k', d) /\ k_out k' = k_out k /\ P held k'.
Proof.
  intros [HJ Hd Hm]. rewrite one_event_eq. cbn [ev_code ev_pressed ev_time].
  destruct (plain_tick k0 struck n16 (S f) held k t HJ) as (k' & d & E & HJ' & Eo).
  exists k', d. split; [exact E|]. split; [exact Eo|]. split; auto; rewrite Eo; auto.
Qed.

(* ---- the daemon ----------------------------------------------------------------------- *)
Variable p : kptr.
Variable devs : list device.
Variable wr : nat -> bool.
Variable f : nat.
Definition at_p (d : dstate) (k : kbd) : Prop := fst p = d_gen d /\ nth_error (d_ents d) (snd p) = Some k.
Lemma at_p_deref d k : at_p d k -> deref d p = Ok k.
Proof. intros [A B]. unfold deref. now rewrite A, Nat.eqb_refl, B. Qed.
Lemma at_p_store d k k' : at_p d k -> at_p (store p k' d) k'.
Proof.
  intros [A B]. split; [exact A|]. unfold store. cbn [d_ents set_d_ents]. exact (nth_error_upd_same _ _ _ _ B).
Qed.
Definition D (held : list N) (d : dstate) : Prop :=
  d_devs d = devs /\ (d_active d = None \/ d_active d = Some p) /\ exists k, at_p d k /\ P held k.
Definition vkeys (os : list oev) : list vev := flat_map (fun o => match o with OKey x b => [VKey x b] | _ => [] end) os.

Lemma d_run held d x b t : D held d -> struck x ->
  exists d' z, run_kbd (S (S f)) wr p (mkKev x b t) d = Ok (d', z)
    /\ d_out d' = vkeys (fst (effect held x b)) ++ d_out d /\ D (snd (effect held x b)) d'
    /\ d_active d' = d_active d.
Proof.
  intros (Hd & Ha & k & Hk & HP) Hs. unfold run_kbd. rewrite (at_p_deref _ _ Hk). cbn [bind].
  destruct (p_event f held (set_k_clock (d_clock d) k) x b t (p_clock _ _ _ HP) Hs) as (k' & z & E & Eo & HP').
  rewrite E. cbn [bind]. cbn [k_out set_k_clock] in Eo. rewrite Eo.
  rewrite app_length, Nat.add_sub, firstn_app, Nat.sub_diag, firstn_all, app_nil_r.
  assert (Hx : (x < 256)%N /\ ~ In x [148; 149; 202; 203]%N) by (destruct Hs as [e [He [-> _]]]; split; apply (plain_code_ok e He)).
  assert (Hd1 : forall b', dsend_key x b' (set_d_clock (k_clock k') d)
     = vemit (VKey x b') (set_d_ks (fupd (d_ks d) x b') (set_d_clock (k_clock k') d))).
  { intros b'. unfold dsend_key. rewrite N.mod_small by apply Hx. cbn [In] in Hx.
    unfold K_SCROLL_DOWN, K_SCROLL_UP, K_SCROLL_LEFT, K_SCROLL_RIGHT.
    replace (x =? 148)%N with false by lia. replace (x =? 149)%N with false by lia.
    replace (x =? 203)%N with false by lia. replace (x =? 202)%N with false by lia. reflexivity. }
  assert (G : forall d1, d_devs d1 = d_devs d -> d_active d1 = d_active d -> d_gen d1 = d_gen d -> d_ents d1 = d_ents d ->
     D (snd (effect held x b)) (store p k' d1)).
  { intros d1 A1 A2 A3 A4. split; [now cbn [d_devs store set_d_ents]; rewrite A1|].
    split; [cbn [d_active store set_d_ents]; now rewrite A2|]. exists k'. split; [|exact HP'].
    apply at_p_store with (k := k). destruct Hk as [B1 B2]. split; congruence. }
  assert (Y : fst (effect held x b) = [] \/ fst (effect held x b) = [OKey x b]).
  { unfold effect. destruct b, (in_dec _ _ _); auto. destruct (_ <? _); auto. }
  destruct Y as [Y|Y]; rewrite Y; cbn [rev app deliver_all deliver bind vkeys flat_map].
  - eexists _, _. split; [reflexivity|]. split; [reflexivity|]. split; [now apply G|reflexivity].
  - rewrite Hd1. cbn [bind]. eexists _, _. split; [reflexivity|]. split; [reflexivity|]. split; [now apply G|reflexivity].
Qed.
Lemma d_tick held d t : D held d -> d_active d = Some p ->
  exists d' z, run_kbd (S (S f)) wr p (mkKev 0 false t) d = Ok (d', z) /\ d_out d' = d_out d /\ D held d'.
Proof.
  intros (Hd & Ha & k & Hk & HP) Hs. unfold run_kbd. rewrite (at_p_deref _ _ Hk). cbn [bind].
  destruct (p_tick f held (set_k_clock (d_clock d) k) t (p_clock _ _ _ HP)) as (k' & z & E & Eo & HP').
  rewrite E. cbn [bind]. cbn [k_out set_k_clock] in Eo. rewrite Eo, Nat.sub_diag. cbn [firstn rev deliver_all bind].
  eexists _, _. split; [reflexivity|]. split; [reflexivity|].
  split; [exact Hd|]. split; [exact Ha|]. exists k'. split; [|exact HP']. now apply at_p_store with (k := k).
Qed.

(* calls of the handler *)
Lemma d_times held d a b : D held d -> D held (set_d_times a b d).
Proof. intros (A & B & k & C & E). split; [exact A|]. split; [exact B|]. exists k. auto. Qed.
Lemma call_tick held l t : D held (lp_d l) ->
  exists l', call (S (S f)) wr EvTimeout t l = Ok l' /\ d_out (lp_d l') = d_out (lp_d l) /\ D held (lp_d l').
Proof.
  intros HD. unfold call, event_handler.
  apply (d_times _ _ t (Z.max 0 (d_timeout (lp_d l) - (t - d_last (lp_d l))))) in HD.
  set (d := set_d_times _ _ (lp_d l)) in *.
  destruct (d_active d) as [q|] eqn:Ea.
  - assert (q = p) as ->. { destruct HD as (_ & [X|X] & _); congruence. }
    destruct (d_tick held d t HD Ea) as (d' & z & E & Eo & HD'). rewrite E. cbn [bind].
    eexists. split; [reflexivity|]. cbn [lp_d]. split; [exact Eo|]. now apply d_times.
  - cbn [bind]. eexists. split; [reflexivity|]. split; [reflexivity|exact HD].
Qed.
Lemma call_key held l i dv x b y1 y2 t : D held (lp_d l) -> struck x -> nth_error devs i = Some dv -> dv_data dv = Some p ->
  exists l', call (S (S f)) wr (EvDev i (mkDe DevKey x b y1 y2)) t l = Ok l'
    /\ d_out (lp_d l') = vkeys (fst (effect held x (negb (b =? 0)%N))) ++ d_out (lp_d l)
    /\ D (snd (effect held x (negb (b =? 0)%N))) (lp_d l').
Proof.
  intros HD Hs Hi Hdv. unfold call, event_handler.
  apply (d_times _ _ t (Z.max 0 (d_timeout (lp_d l) - (t - d_last (lp_d l))))) in HD.
  set (d := set_d_times _ _ (lp_d l)) in *. unfold device_event. destruct HD as (Hd & Ha & k & Hk & HP).
  rewrite Hd, Hi, Hdv. cbn [de_type de_code de_pressed].
  destruct (d_run held (set_d_active (Some p) d) x (negb (b =? 0)%N) t) as (d' & z & E & Eo & HD' & Ha').
  - split; [exact Hd|]. split; [now right|]. exists k. auto.
  - exact Hs.
  - rewrite E. cbn [bind]. eexists. split; [reflexivity|]. cbn [lp_d]. split; [exact Eo|]. now apply d_times.
Qed.

(* ---- held keys by their evdev codes ------------------------------------------------------ *)
Lemma in_inside e held : plain_code e -> Forall plain_code held -> In (inside e) (map inside held) <-> In e held.
Proof.
  intros He F. rewrite in_map_iff. split; [|eauto]. intros [y [Ey Hy]]. rewrite Forall_forall in F.
  apply inside_inj in Ey; auto. now subst.
Qed.
Lemma remove_inside e held : plain_code e -> Forall plain_code held ->
  remove N.eq_dec (inside e) (map inside held) = map inside (remove N.eq_dec e held).
Proof.
  intros He. induction 1 as [|y held Hy F IH]; cbn [map remove]; auto.
  destruct (N.eq_dec e y) as [->|Ne].
  - destruct (N.eq_dec _ _) as [|X]; [auto|congruence].
  - destruct (N.eq_dec _ _) as [X|]; [apply inside_inj in X; auto; contradiction|]. cbn [map]. now rewrite IH.
Qed.
Lemma forall_remove e held : Forall plain_code held -> Forall plain_code (remove N.eq_dec e held).
Proof. rewrite !Forall_forall. intros H x Hx. apply in_remove in Hx as [Hx _]. auto. Qed.

(* the effect of a stroke, in the terms of the specification *)
Lemma effect_accepted e b held : plain_code e -> Forall plain_code held ->
  exists held', Forall plain_code held' /\ snd (effect (map inside held) (inside e) b) = map inside held'
    /\ written (rev (vkeys (fst (effect (map inside held) (inside e) b)))) = map as_read (accepted n16 held [(e, b)])
    /\ forall r, accepted n16 held ((e, b) :: r) = accepted n16 held [(e, b)] ++ accepted n16 held' r.
Proof.
  intros He F. pose proof (in_inside e held He F) as HI.
  assert (W : forall b', written (rev (vkeys [OKey (inside e) b'])) = [as_read (e, b')]).
  { intros b'. cbn [vkeys flat_map app rev written]. destruct (plain_code_ok e He) as (_ & _ & _ & _ & _ & ->). reflexivity. }
  unfold effect. destruct b; cbn [accepted]; rewrite ?map_length;
    destruct (in_dec N.eq_dec (inside e) (map inside held)) as [X|X]; destruct (in_dec N.eq_dec e held) as [Y|Y];
    try (exfalso; tauto).
  - exists held. auto.
  - destruct (length held <? n16).
    + exists (e :: held). split; [now constructor|]. split; [reflexivity|]. split; [exact (W true)|reflexivity].
    + exists held. auto.
  - exists (remove N.eq_dec e held). split; [now apply forall_remove|]. split; [now apply remove_inside|].
    split; [exact (W false)|reflexivity].
  - exists held. auto.
Qed.

(* ---- the loop ------------------------------------------------------------------------------ *)
Record Inv (l : lstate) : Prop := mkInv {
  i_ex : exists reads extra held,
    rev (lp_reads l) = reads ++ extra /\ length extra = (if lp_dead l then 1 else 0)
    /\ written (rev (d_out (lp_d l))) = map as_read (accepted n16 [] (flat_map strokes_read reads))
    /\ (forall r, accepted n16 [] (flat_map strokes_read reads ++ r)
                = accepted n16 [] (flat_map strokes_read reads) ++ accepted n16 held r)
    /\ Forall plain_code held /\ D (map inside held) (lp_d l) }.

Lemma written_app a b : written (a ++ b) = written a ++ written b.
Proof. unfold written. apply flat_map_app. Qed.
Lemma upd_same {A} (l : list A) i x : nth_error l i = Some x -> upd i x l = l.
Proof. revert i. induction l as [|y l IH]; intros [|i]; cbn [nth_error upd]; try discriminate; [now intros [= ->]|]. intros H. now rewrite IH. Qed.

Lemma read_device_inv i dv : nth_error devs i = Some dv -> dv_data dv = Some p ->
  forall rs t l, Forall (plain_read k0) rs -> lp_dead l = false -> Inv l ->
  exists l', read_device (S (S f)) wr i rs t l = Ok l' /\ Inv l'.
Proof.
  intros Hi Hdv. induction rs as [|r rs IH]; intros t l F Hdead HI; cbn [read_device]; [eauto|].
  inversion F as [|? ? Hr F']; subst.
  destruct HI as [(reads & extra & held & E1 & E2 & E3 & E4 & E5 & E6)].
  rewrite Hdead in E2. destruct extra; [|discriminate E2]. rewrite app_nil_r in E1.
  pose proof E6 as (Hd & Ha & k & Hk & HP). rewrite Hd, Hi.
  assert (SK : forall st, strokes_read (i, r) = [] -> forall tmo cs pn, Inv (mkL (set_d_devs (upd i dv devs) (lp_d l)) tmo st pn (lp_dead l)
                                   ((i, r) :: lp_reads l) cs)).
  { intros st Hs tmo cs pn. constructor. exists (reads ++ [(i, r)]), [], held. cbn [lp_reads lp_dead lp_d]. rewrite Hdead.
    cbn [rev]. rewrite E1, app_nil_r, flat_map_app. cbn [flat_map]. rewrite Hs. cbn [app]. rewrite !app_nil_r.
    rewrite (upd_same _ _ _ Hi). split; [reflexivity|]. split; [reflexivity|]. split; [exact E3|]. split; [exact E4|].
    split; [exact E5|]. split; [reflexivity|]. split; [exact Ha|]. exists k. auto. }
  destruct r as [e| |]; [|eexists; split; [reflexivity|]; now apply SK|contradiction].
  unfold device_read_event. cbn [plain_read] in Hr. destruct e as [ty ec ev]. cbn [ie_type ie_code ie_value] in *.
  destruct (N.eqb_spec ty 1) as [->|Ty].
  2:{ cbn [In] in Hr. unfold EV_REL, EV_ABS, EV_KEY, EV_LED.
      replace (ty =? 2)%N with false by lia. replace (ty =? 3)%N with false by lia.
      replace (ty =? 1)%N with false by lia. replace (ty =? 17)%N with false by lia.
      cbn [bind negb]. eexists. split; [reflexivity|]. apply SK. unfold strokes_read. cbn [snd ie_type].
      replace (ty =? 1)%N with false by lia. reflexivity. }
  change (1 =? EV_REL)%N with false. change (1 =? EV_ABS)%N with false. change (1 =? EV_KEY)%N with true. cbv iota.
  destruct Hr as (Hc & Hla & Hv). destruct (plain_code_ok ec Hc) as (Rc & _).
  destruct (Z.eqb_spec ev 2) as [->|Nv].
  { cbn [bind negb]. eexists. split; [reflexivity|]. now apply SK. }
  rewrite Rc. cbn [bind negb de_type de_code de_pressed lp_panic].
  assert (Hs : struck (inside ec)) by (exists ec; auto).
  destruct (panic_check (lp_panic l) (inside ec) (u8 ev)) as [s die].
  destruct die.
  { eexists. split; [reflexivity|]. constructor. exists reads, [(i, REvent (mkIev 1 ec ev))], held.
    cbn [lp_reads lp_dead lp_d rev]. rewrite orb_true_r, E1. rewrite (upd_same _ _ _ Hi).
    split; [reflexivity|]. split; [reflexivity|]. split; [exact E3|]. split; [exact E4|]. split; [exact E5|].
    split; [reflexivity|]. split; [exact Ha|]. exists k. auto. }
  cbn [lp_d lp_timeout lp_de lp_dead lp_reads lp_calls].
  match goal with |- context [call _ _ _ t ?l0] => set (l1 := l0) end.
  assert (HD1 : D (map inside held) (lp_d l1)).
  { unfold l1. cbn [lp_d]. rewrite (upd_same _ _ _ Hi). split; [reflexivity|]. split; [exact Ha|]. exists k. auto. }
  destruct (call_key (map inside held) l1 i dv (inside ec) (u8 ev) (de_x (lp_de l)) (de_y (lp_de l)) t HD1 Hs Hi Hdv)
    as (l2 & Ec & Eo & HD2).
  rewrite Ec. cbn [bind]. apply call_same in Ec as (_ & _ & C1 & C2).
  replace (negb (u8 ev =? 0)%N) with (ev =? 1)%Z in *.
  2:{ assert (ev = 0 \/ ev = 1)%Z as [->| ->] by lia; reflexivity. }
  destruct (effect_accepted ec (ev =? 1)%Z held Hc E5) as (held' & F2 & G1 & G2 & G3).
  apply IH; auto.
  - rewrite C1. unfold l1. cbn [lp_dead]. now rewrite Hdead.
  - constructor. exists (reads ++ [(i, REvent (mkIev 1 ec ev))]), [], held'.
    rewrite C1, C2. unfold l1. cbn [lp_dead lp_reads rev]. rewrite Hdead, E1, app_nil_r. cbn [orb].
    assert (Es : flat_map strokes_read (reads ++ [(i, REvent (mkIev 1 ec ev))])
                 = flat_map strokes_read reads ++ [(ec, (ev =? 1)%Z)]).
    { rewrite flat_map_app. cbn [flat_map]. rewrite app_nil_r. f_equal. unfold strokes_read. cbn [snd ie_type ie_code ie_value].
      destruct (Z.eqb_spec ev 2); [contradiction|reflexivity]. }
    rewrite Es. split; [reflexivity|]. split; [reflexivity|]. split; [|split; [|split; [exact F2|]]].
    + rewrite Eo. unfold l1. cbn [lp_d d_out set_d_devs]. rewrite rev_app_distr, written_app, E3, G2, <- map_app, <- E4. reflexivity.
    + intros r. rewrite <- app_assoc, !E4. cbn [app]. rewrite G3. apply app_assoc.
    + rewrite <- G1. exact HD2.
Qed.

Lemma read_devices_inv reads : (forall i x, In x (reads i) -> plain_read k0 x /\ exists dv, nth_error devs i = Some dv /\ dv_data dv = Some p) ->
  forall is t l, Forall (fun i => i < length devs) is -> Inv l ->
  exists l', read_devices (S (S f)) wr reads is t l = Ok l' /\ Inv l'.
Proof.
  intros Hr. induction is as [|i is IH]; intros t l F HI; cbn [read_devices]; [eauto|].
  inversion F as [|? ? Hi F']; subst. destruct (lp_dead l) eqn:Hdead; [eauto|].
  assert (X : exists l', read_device (S (S f)) wr i (reads i) t l = Ok l' /\ Inv l').
  { destruct (reads i) as [|r rs] eqn:Er; [cbn [read_device]; eauto|].
    destruct (Hr i r) as [_ [dv [H1 H2]]]; [rewrite Er; now left|]. apply read_device_inv with (dv := dv); auto.
    apply Forall_forall. intros x Hx. rewrite <- Er in Hx. now apply Hr in Hx. }
  destruct X as [l1 [E1 I1]]. rewrite E1. cbn [bind]. now apply IH.
Qed.
Lemma inv_devs l : Inv l -> d_devs (lp_d l) = devs.
Proof. intros [(reads & extra & held & _ & _ & _ & _ & _ & H)]. apply H. Qed.

Hypothesis H_open : forallb dv_open devs = true.
Lemma filter_all {A} (g : A -> bool) l : forallb g l = true -> filter g l = l.
Proof. induction l as [|x l IH]; cbn [forallb filter]; auto. intros H. apply andb_true_iff in H as [H1 H2]. rewrite H1. now rewrite IH. Qed.
Lemma inv_keep l d t de pn cs : Inv l -> d_devs d = devs -> d_gen d = d_gen (lp_d l) -> d_ents d = d_ents (lp_d l) ->
  d_active d = d_active (lp_d l) -> d_out d = d_out (lp_d l) -> Inv (mkL d t de pn (lp_dead l) (lp_reads l) cs).
Proof.
  intros [(reads & extra & held & E1 & E2 & E3 & E4 & E5 & (Hd & Ha & k & [K1 K2] & HP))] A1 A2 A3 A4 A5.
  constructor. exists reads, extra, held. cbn [lp_reads lp_dead lp_d]. rewrite A5.
  split; [exact E1|]. split; [exact E2|]. split; [exact E3|]. split; [exact E4|]. split; [exact E5|].
  split; [exact A1|]. split; [now rewrite A4|]. exists k. split; [|exact HP]. split; congruence.
Qed.
Lemma round_inv r l : plain_round devs p k0 r -> Inv l -> exists l', loop_round (S (S f)) wr r l = Ok l' /\ Inv l'.
Proof.
  intros (Hc & Ha & Hr) HI. unfold loop_round. destruct (lp_dead l) eqn:Hdead; [eauto|].
  assert (X : exists l1, (if ((0 <? lp_timeout l) && (lp_timeout l <=? r_stop r - r_start r))%Z
     then call (S (S f)) wr EvTimeout (r_stop r) l
     else Ok (mkL (lp_d l) (lp_timeout l - (r_stop r - r_start r)) (lp_de l) (lp_panic l) (lp_dead l) (lp_reads l) (lp_calls l))) = Ok l1
     /\ Inv l1).
  { destruct (andb _ _).
    - destruct HI as [(reads & extra & held & E1 & E2 & E3 & E4 & E5 & E6)].
      destruct (call_tick (map inside held) l (r_stop r) E6) as (l1 & Ec & Eo & HD). exists l1. split; [exact Ec|].
      apply call_same in Ec as (_ & _ & C1 & C2).
      constructor. exists reads, extra, held. rewrite C1, C2, Eo. auto 10.
    - eexists. split; [reflexivity|]. apply inv_keep; auto. now apply inv_devs. }
  destruct X as [l1 [E1 I1]]. rewrite Hdead in E1. rewrite E1. cbn [bind].
  destruct (read_devices_inv (r_reads r) Hr (seq 0 (length (d_devs (lp_d l1)))) (r_stop r) l1) as [l2 [E2 I2]]; auto.
  { rewrite (inv_devs _ I1). apply Forall_forall. intros i Hi. apply in_seq in Hi. lia. }
  rewrite E2. cbn [bind]. destruct (lp_dead l2) eqn:Hd2; [eauto|].
  rewrite Hc, Ha. cbn [map calls bind add_devices]. eexists. split; [reflexivity|].
  apply inv_keep; auto. cbn [d_devs set_d_devs]. rewrite (inv_devs _ I2). now apply filter_all.
Qed.
Lemma loop_inv : forall rs l, Forall (plain_round devs p k0) rs -> Inv l -> exists l', loop (S (S f)) wr rs l = Ok l' /\ Inv l'.
Proof.
  induction rs as [|r rs IH]; intros l F HI; cbn [loop]; [eauto|]. inversion F; subst.
  destruct (round_inv r l) as [l1 [E1 I1]]; auto. rewrite E1. cbn [bind]. now apply IH.
Qed.
End Pass.
