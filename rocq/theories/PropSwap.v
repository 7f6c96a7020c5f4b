(* C61: swap(l) moves whatever keeps its own layer on to the layer l. *)
From Coq Require Import String.
From Verif Require Import Base Lib Keys Types MacroExec Kbd Config Steps Hist SpecTrace SpecMods SpecLookup
  SpecHist SpecActions SpecKept SpecSwap TraceProofs ModsProofs LookupProofs Engine SpecWf Wf ActProofs StepProofs OneProofs
  CacheProofs Inv ClassInv ParseWf WfHist KeptProofs PropKept StuckProofs SwapProofs ExTools.
Local Open Scope list_scope.
Local Open Scope N_scope.

(* the press of a ready key bound to swap *)
Lemma swap_press (G : config -> Prop) c fuel k code time d l dl k' t :
  reach G c k -> ready k code time -> swap_of d l -> resolves k code d dl ->
  process_event fuel k code true time = Ok (k', t) ->
  exists k0 k1, pressed_state k k0 code d dl /\ do_swap k0 dl l = Ok k1
    /\ k_ls k' = k_ls k1 /\ k_cache k' = k_cache k1 /\ k_cfg k' = k_cfg k1
    /\ (exists o, k_out k' = o ++ k_out k1 /\ forallb no_layer o = true)
    /\ (d = DSwap l -> k_out k' = k_out k1 /\ k_ks k' = k_ks k1)
    /\ k_pend k' = k_pend k1 /\ k_chord k' = k_chord k1.
Proof.
  intros Hr Hy Hs Hres H.
  destruct (press_do _ _ _ _ _ _ _ _ (proj2 (reach_times _ _ _ Hr)) Hy Hres H) as [k0 [k1 [P [E ->]]]].
  exists k0. unfold do_desc, pd_fuel in E. apply pd_unfold in E as [ka [kb [E1 [-> E2]]]].
  destruct Hs as [->|[m ->]]; apply Ok_inj in E1; subst ka.
  - unfold pd_swap in E2. bstep E2 k2 E3. apply Ok_inj in E2. subst kb. exists k2. split; [exact P|].
    split; [exact E3|]. do 3 (split; [reflexivity|]). split; [exists []; auto|]. split; [auto|split; reflexivity].
  - bstep E2 mm Em. unfold pd_swap in E2. bstep E2 k2 E3. apply Ok_inj in E2. exists k2. split; [exact P|].
    split; [exact E3|]. destruct (execute_macro_grow k2 dl mm) as [l1 [s1 [o1 [Eg Ho]]]]. subst kb. rewrite Eg.
    do 3 (split; [reflexivity|]). split; [exists o1; auto|]. split; [discriminate|split; reflexivity].
Qed.

Lemma do_swap_pend k dl l k' : do_swap k dl l = Ok k' -> k_pend k' = k_pend k /\ k_chord k' = k_chord k.
Proof.
  intros E2. unfold do_swap in E2. bstep E2 u Eu. bstep E2 u2 Eu2.
  destruct (l_toggled _); [|destruct (negb _); [|destruct (swap_slot _ _ _ _)]].
  - bstep E2 k4 E3. bstep E2 k3 E4. apply Ok_inj in E2. subst. norm_states. auto.
  - bstep E2 k4 E3. bstep E2 k3 E4. apply Ok_inj in E2. subst. norm_states. auto.
  - bstep E2 k4 E3. bstep E2 k3 E4. apply Ok_inj in E2. subst. norm_states. auto.
  - apply Ok_inj in E2. now subst.
Qed.
Lemma do_swap_own k dl l k' code d dk : uniq (k_cache k) -> do_swap k dl l = Ok k' -> code <> 0 ->
  In (mkCe code d dk 0) (k_cache k) -> In (mkCe code d dk 0) (k_cache k').
Proof.
  intros U E Hc Hin. destruct (toggled k dl) eqn:Et; [apply (swap_toggled _ _ _ _ E Et); auto|].
  destruct (N.eq_dec (oneshots k dl) 0) as [Ed|Ed]; [|apply (swap_oneshot _ _ _ _ E Et Ed); auto].
  destruct (swap_held _ _ _ _ U E Et Ed) as [[-> S]|[h1 [d0 [dh [S1 [S2 [S3 [S4 [S5 _]]]]]]]]]; auto.
  apply S5; auto. cbn [ce_code]. intros <-.
  apply In_nth with (d := zero_ce) in Hin as [a [A3 A4]]. apply In_nth with (d := zero_ce) in S3 as [b [B3 B4]].
  assert (a = b) by (apply U; auto; rewrite ?A4, ?B4; cbn [ce_code]; auto).
  subst b. rewrite A4 in B4. injection B4 as _ _ Hz. destruct S2. congruence.
Qed.
Lemma pressed_uniq G c k code time k0 d dl : reach G c k -> ready k code time -> pressed_state k k0 code d dl ->
  uniq (k_cache k0).
Proof.
  intros Hr Hy [q [i [-> [Hi [Hz Hq]]]]]. cbn [k_cache set_k_cache].
  apply uniq_upd; [apply (reach_uniq _ _ _ Hr)|exact Hi|]. right. right. apply Hy.
Qed.
Lemma pressed_kept k code d dl k0 e : pressed_state k k0 code d dl ->
  In e (k_cache k) -> ce_code e <> 0 -> In e (k_cache k0).
Proof.
  intros [q [i [-> [Hi [Hz Hq]]]]] He Hn. cbn [k_cache set_k_cache].
  apply In_nth with (d := zero_ce) in He as [j [J1 J2]].
  assert (i <> j) by (intros ->; congruence).
  rewrite <- J2, <- (nth_upd_other i j (mkCe code d dl 0)) by auto. apply nth_In. now rewrite upd_length.
Qed.
Lemma pressed_entry k code d dl k0 e : pressed_state k k0 code d dl ->
  In e (k_cache k0) -> e = mkCe code d dl 0 \/ In e (k_cache k).
Proof.
  intros [q [i [-> [Hi [Hz Hq]]]]] He. cbn [k_cache set_k_cache] in He.
  apply In_nth with (d := zero_ce) in He as [j [J1 J2]]. rewrite upd_length in J1.
  destruct (Nat.eq_dec i j) as [<-|Hne].
  - left. now rewrite nth_upd_same in J2 by auto.
  - right. rewrite nth_upd_other in J2 by auto. subst e. now apply nth_In.
Qed.
Lemma pressed_same k code d dl k0 : pressed_state k k0 code d dl ->
  k_ls k0 = k_ls k /\ k_cfg k0 = k_cfg k /\ k_out k0 = k_out k /\ k_ks k0 = k_ks k.
Proof. intros [q [i [-> _]]]. auto. Qed.

(* all of it: the layers, the announcements, the keys held, the modifiers *)
Definition moved (k k' : kbd) (a b : nat) : Prop :=
  moves k k' a b /\ exists new, since k k' new /\ switches new = [(b, true); (a, false)].

Lemma moved_lift k k' k0 k1 dl l o : k_ls k0 = k_ls k -> k_cfg k0 = k_cfg k -> k_out k0 = k_out k ->
  k_ls k' = k_ls k1 -> k_out k' = o ++ k_out k1 -> forallb no_layer o = true ->
  switched k0 k1 dl l -> moved k k' dl l.
Proof.
  intros A1 A2 A3 B1 B2 B3 [S1 [[new [S2 S3]] S4]]. unfold moved, moves, count in *. rewrite B1, <- A1. split; [exact S1|].
  exists (o ++ new). split; [unfold since in *; now rewrite B2, S2, A3, app_assoc|].
  now rewrite switches_app, switches_none, S3 by auto.
Qed.
Lemma mods_lift k' k1 c : reach no_raw_mods c k' -> k_ls k' = k_ls k1 -> k_cfg k' = k_cfg k1 -> k_ks k' = k_ks k1 ->
  mods_ks k1 -> mods_of_layers k'.
Proof.
  intros Hr B1 B2 B3 M bit mc Hm.
  assert (Ha : agrees k' mc) by (eapply (reach_agrees no_raw_mods); eauto).
  unfold agrees in Ha. rewrite Ha, B3, (M bit mc Hm). unfold lit, layer_active, layer_mods. now rewrite B1, B2.
Qed.

(* The layer is toggled on: the toggle moves. *)
Theorem C61_toggled :
  forall (G : config -> Prop) c fuel k code time d l dl k' t,
  reach G c k -> ready k code time -> swap_of d l -> resolves k code d dl -> toggled k dl = true ->
  process_event fuel k code true time = Ok (k', t) ->
  moved k k' dl l
  /\ (forall i, toggled k' i = if Nat.eqb i l then true else if Nat.eqb i dl then false else toggled k i)
  /\ (forall i, oneshots k' i = oneshots k i)
  /\ bindings_kept (fun _ => True) k k'.
Proof.
  intros G c fuel k code time d l dl k' t Hr Hy Hs Hres Ht H.
  destruct (swap_press _ _ _ _ _ _ _ _ _ _ _ Hr Hy Hs Hres H) as [k0 [k1 [P [E [B1 [B2 [B3 [[o [B4 B5]] [_ _]]]]]]]]].
  destruct (pressed_same _ _ _ _ _ P) as [A1 [A2 [A3 A4]]].
  unfold toggled, oneshots in *. rewrite <- A1 in *.
  destruct (swap_toggled _ _ _ _ E Ht) as [S1 [S2 [S3 [S4 _]]]]. rewrite B1.
  split; [exact (moved_lift _ _ _ _ _ _ _ A1 A2 A3 B1 B4 B5 S1)|]. split; [exact S2|]. split; [exact S3|].
  intros e He Hn _. rewrite B2. apply S4; auto. eapply pressed_kept; eauto.
Qed.

(* Otherwise, if it is on as a oneshot layer, one of the pending oneshots moves. *)
Theorem C61_oneshot :
  forall (G : config -> Prop) c fuel k code time d l dl k' t,
  reach G c k -> ready k code time -> swap_of d l -> resolves k code d dl ->
  toggled k dl = false -> oneshots k dl <> 0 ->
  process_event fuel k code true time = Ok (k', t) ->
  moved k k' dl l
  /\ (forall i, toggled k' i = toggled k i)
  /\ (forall i, oneshots k' i =
        let n := if Nat.eqb i dl then oneshots k i - 1 else oneshots k i in
        if Nat.eqb i l then (n + 1) mod 256 else n)
  /\ bindings_kept (fun _ => True) k k'.
Proof.
  intros G c fuel k code time d l dl k' t Hr Hy Hs Hres Ht Hd H.
  destruct (swap_press _ _ _ _ _ _ _ _ _ _ _ Hr Hy Hs Hres H) as [k0 [k1 [P [E [B1 [B2 [B3 [[o [B4 B5]] [_ _]]]]]]]]].
  destruct (pressed_same _ _ _ _ _ P) as [A1 [A2 [A3 A4]]].
  unfold toggled, oneshots in *. rewrite <- A1 in *.
  destruct (swap_oneshot _ _ _ _ E Ht Hd) as [S1 [S2 [S3 [S4 _]]]]. rewrite B1.
  split; [exact (moved_lift _ _ _ _ _ _ _ A1 A2 A3 B1 B4 B5 S1)|]. split; [exact S2|]. split; [exact S3|].
  intros e He Hn _. rewrite B2. apply S4; auto. eapply pressed_kept; eauto.
Qed.

(* Otherwise, if held keys keep it on, one of them now keeps l on instead: it is
   remembered as bound to layer(l), all other held keys as before. *)
Theorem C61_held :
  forall (G : config -> Prop) c fuel k code time d l dl k' t,
  reach G c k -> ready k code time -> swap_of d l -> resolves k code d dl ->
  toggled k dl = false -> oneshots k dl = 0 -> ordinary k dl -> (exists h, keeps k h dl) ->
  process_event fuel k code true time = Ok (k', t) ->
  moved k k' dl l
  /\ (forall i, toggled k' i = toggled k i) /\ (forall i, oneshots k' i = oneshots k i)
  /\ exists h d0 dh, h <> 0 /\ h <> code /\ remembered k h d0 dh dl /\ remembered k' h (DLayer l) dh l
       /\ bindings_kept (fun c => c <> h) k k'.
Proof.
  intros G c fuel k code time d l dl k' t Hr Hy Hs Hres Ht Hd Ho [h0 [Hh0 [e0 [K1 [K2 K3]]]]] H.
  destruct (swap_press _ _ _ _ _ _ _ _ _ _ _ Hr Hy Hs Hres H) as [k0 [k1 [P [E [B1 [B2 [B3 [[o [B4 B5]] [_ _]]]]]]]]].
  destruct (pressed_same _ _ _ _ _ P) as [A1 [A2 [A3 A4]]].
  unfold toggled, oneshots in *. rewrite <- A1 in *.
  assert (Ho0 : ordinary k0 dl) by (unfold ordinary, layer_of in *; rewrite A2; exact Ho).
  assert (Hn0 : ce_code e0 <> 0) by congruence.
  destruct (swap_held _ _ _ _ (pressed_uniq _ _ _ _ _ _ _ _ Hr Hy P) E Ht Hd)
    as [[-> S]|[h [d0 [dh [S1 [S2 [S3 [S4 [S5 [S6 [S7 [S8 _]]]]]]]]]]]].
  { exfalso. apply (S Ho0 e0); auto. eapply pressed_kept; eauto. }
  rewrite B1. split; [exact (moved_lift _ _ _ _ _ _ _ A1 A2 A3 B1 B4 B5 S6)|]. split; [exact S7|]. split; [exact S8|].
  exists h, d0, dh. split; [exact S1|].
  assert (In (mkCe h d0 dh dl) (k_cache k)).
  { destruct (pressed_entry _ _ _ _ _ _ P S3) as [Heq|Hin]; auto. injection Heq as _ _ _ Hz. destruct Ho. contradiction. }
  split; [intros ->; destruct Hy as [_ [_ [_ [_ [Hu _]]]]]; exact (Hu _ H0 eq_refl)|].
  split; [exact H0|]. split; [unfold remembered; now rewrite B2|].
  intros e He Hn Hne. rewrite B2. apply S5; auto. eapply pressed_kept; eauto.
Qed.

(* Otherwise nothing happens to the layers. *)
Theorem C61_nothing :
  forall (G : config -> Prop) c fuel k code time d l dl k' t,
  reach G c k -> ready k code time -> swap_of d l -> resolves k code d dl ->
  toggled k dl = false -> oneshots k dl = 0 -> ~ ordinary k dl \/ (forall h, ~ keeps k h dl) ->
  process_event fuel k code true time = Ok (k', t) ->
  k_ls k' = k_ls k /\ (exists new, since k k' new /\ switches new = []) /\ bindings_kept (fun _ => True) k k'
  /\ (d = DSwap l -> k_out k' = k_out k).
Proof.
  intros G c fuel k code time d l dl k' t Hr Hy Hs Hres Ht Hd Hno H.
  destruct (swap_press _ _ _ _ _ _ _ _ _ _ _ Hr Hy Hs Hres H) as [k0 [k1 [P [E [B1 [B2 [B3 [[o [B4 B5]] [B6 _]]]]]]]]].
  destruct (pressed_same _ _ _ _ _ P) as [A1 [A2 [A3 A4]]].
  unfold toggled, oneshots in *. rewrite <- A1 in *.
  destruct (swap_held _ _ _ _ (pressed_uniq _ _ _ _ _ _ _ _ Hr Hy P) E Ht Hd)
    as [[-> S]|[h [d0 [dh [S1 [S2 [S3 _]]]]]]].
  - split; [exact B1|]. split; [exists o; split; [unfold since; now rewrite B4, A3|now apply switches_none]|]. split.
    + intros e He Hn _. rewrite B2. eapply pressed_kept; eauto.
    + intros Ed. destruct (B6 Ed) as [X _]. now rewrite X, A3.
  - exfalso. assert (Ho : ordinary k dl) by (unfold ordinary, layer_of in *; rewrite <- A2; exact S2).
    destruct Hno as [Hno|Hno]; [contradiction|].
    destruct (pressed_entry _ _ _ _ _ _ P S3) as [Heq|Hin].
    + injection Heq as _ _ _ Hz. destruct Ho. contradiction.
    + apply (Hno h). split; [exact S1|]. exists (mkCe h d0 dh dl). auto.
Qed.

(* If the layer is left, the modifiers down afterwards are those of the layers now active. *)
Theorem C61_modifiers :
  forall c fuel k code time l dl k' t,
  reach no_raw_mods c k -> ready k code time -> resolves k code (DSwap l) dl ->
  toggled k dl = true \/ oneshots k dl <> 0 \/ (ordinary k dl /\ exists h, keeps k h dl) ->
  process_event fuel k code true time = Ok (k', t) -> mods_of_layers k'.
Proof.
  intros c fuel k code time l dl k' t Hr Hy Hres Hcase H.
  assert (Hr' : reach no_raw_mods c k') by (eapply reach_events; [exact Hr|apply one_event, H]).
  destruct (swap_press _ _ _ _ _ _ _ l _ _ _ Hr Hy (or_introl eq_refl) Hres H) as [k0 [k1 [P [E [B1 [B2 [B3 [_ [B6 _]]]]]]]]].
  destruct (B6 eq_refl) as [_ B7]. apply (mods_lift _ k1 _ Hr' B1 B3 B7).
  destruct (pressed_same _ _ _ _ _ P) as [A1 [A2 [A3 A4]]].
  unfold toggled, oneshots in Hcase. rewrite <- A1 in Hcase.
  destruct (l_toggled (k_ls k0 dl)) eqn:Et; [apply (swap_toggled _ _ _ _ E Et)|].
  destruct (N.eq_dec (l_depth (k_ls k0 dl)) 0) as [Ed|Ed]; [|apply (swap_oneshot _ _ _ _ E Et Ed)].
  destruct Hcase as [X|[X|[Ho [h [Hh [e [K1 [K2 K3]]]]]]]]; [congruence|congruence|].
  destruct (swap_held _ _ _ _ (pressed_uniq _ _ _ _ _ _ _ _ Hr Hy P) E Et Ed)
    as [[-> S]|[h1 [d0 [dh [S1 [S2 [S3 [S4 [S5 [S6 [S7 [S8 S9]]]]]]]]]]]]; [|exact S9].
  exfalso. apply (S) with (e := e); try congruence.
  - unfold ordinary, layer_of in *. now rewrite A2.
  - eapply pressed_kept; eauto. congruence.
Qed.

(* A key holding a layer keeps exactly one layer on, whatever happens meanwhile and
   however often that layer is swapped; its release lets go of that one. *)
Theorem C61_release :
  forall (G : config -> Prop) c fuel k code time d l dl k1 t1 k2 fuel2 time2 k3 t3,
  reach G c k -> ready k code time -> layer_action d l -> resolves k code d dl ->
  process_event fuel k code true time = Ok (k1, t1) ->
  meanwhile G code k1 k2 ->
  h_state (k_chord k2) = CsInactive -> unchorded k2 code -> nothing_due k2 time2 ->
  process_event fuel2 k2 code false time2 = Ok (k3, t3) ->
  keeps k1 code l
  /\ exists l', keeps k2 code l' /\ (forall j, keeps k2 code j -> j = l')
  /\ count k2 l' <> 0 /\ count k3 l' = count k2 l' - 1
  /\ forall i, i <> l' -> count k3 i = count k2 i.
Proof.
  intros G c fuel k code time d l dl k1 t1 k2 fuel2 time2 k3 t3 Hr Hy Hd Hres H M Hs Hu Hn H2.
  destruct (press_layer_remembers _ _ _ _ _ _ _ _ _ _ _ Hr Hy Hd Hres H) as [D1 R1].
  assert (Hr1 : reach G c k1) by (eapply reach_events; [exact Hr|apply one_event, H]).
  assert (P : physical code) by apply Hy.
  split; [split; [apply P|]; exists (mkCe code d dl l); auto|].
  pose proof (reach_uniq _ _ _ Hr1) as [U1 A1].
  assert (K1 : carried code d dl l k1).
  { split; [auto|]. split; [|apply D1]. exists d, l. auto. }
  destruct (meanwhile_carried code d dl l (proj1 P) G k1 k2 P M K1 D1) as [[[U2 A2] [[d' [l' [R2 X]]] _]] D2].
  exists l'. split; [split; [apply P|]; exists (mkCe code d' dl l'); auto|]. split.
  { intros j [_ [e [E1 [E2 E3]]]]. apply In_nth with (d := zero_ce) in E1 as [a [A3 A4]].
    apply In_nth with (d := zero_ce) in R2 as [b [B3 B4]].
    assert (a = b) by (apply U2; auto; rewrite ?A4, ?B4; cbn [ce_code]; auto; rewrite E2; apply P).
    subst b. rewrite A4 in B4. subst e. auto. }
  destruct (release_decided _ _ _ _ _ _ _ _ _ U2 (proj1 P) R2 D2 Hs Hu Hn H2) as [q [ca [k' [_ [E ->]]]]].
  unfold do_desc, pd_fuel in E. apply pd_unfold in E as [ka [kb [E1 [-> E2]]]]. apply Ok_inj in E1. subst ka.
  assert (E3 : pd_layer (set_k_cache ca (set_k_chord q k2)) code l' false = Ok kb).
  { destruct X as [[-> ->]| ->]; [destruct Hd as [->|[m ->]]|]; exact E2. }
  clear E2. unfold pd_layer in E3. bstep E3 k4 E4. apply Ok_inj in E3. subst kb.
  destruct (update_mods_only (k_last_code k4 =? code) k4 None 0) as [x [y [z ->]]].
  unfold count. cbn [k_ls set_k_timeouts kk set_k_out set_k_ks set_k_last_out].
  unfold deactivate_layer in E4. bstep E4 u Eu. cbn [k_ls set_k_cache set_k_chord] in E4.
  destruct (N.eqb_spec (l_active (k_ls k2 l')) 0) as [|Hnz]; [discriminate E4|]. apply Ok_inj in E4. subst k4.
  cbn [k_ls emit set_k_out set_lsi set_k_ls].
  split; [exact Hnz|]. split.
  - now rewrite nupd_same.
  - intros i Hi. now rewrite nupd_other.
Qed.

(* The release of the swap key itself changes no layer; that of swapm releases the key
   of a macro consisting of a single key. *)
Theorem C61_own_release :
  forall (G : config -> Prop) c fuel k code time d l dl k1 t1 k2 fuel2 time2 k3 t3,
  reach G c k -> ready k code time -> swap_of d l -> resolves k code d dl ->
  process_event fuel k code true time = Ok (k1, t1) ->
  meanwhile G code k1 k2 ->
  h_state (k_chord k2) = CsInactive -> unchorded k2 code -> nothing_due k2 time2 ->
  process_event fuel2 k2 code false time2 = Ok (k3, t3) ->
  k_ls k3 = k_ls k2 /\ (exists new, since k2 k3 new /\ switches new = []) /\ (d = DSwap l -> k_out k3 = k_out k2).
Proof.
  intros G c fuel k code time d l dl k1 t1 k2 fuel2 time2 k3 t3 Hr Hy Hs Hres H M Hch Hu Hn H2.
  assert (Hr1 : reach G c k1) by (eapply reach_events; [exact Hr|apply one_event, H]).
  assert (P : physical code) by apply Hy.
  destruct (swap_press _ _ _ _ _ _ _ _ _ _ _ Hr Hy Hs Hres H) as [k0 [kx [Pr [E [B1 [B2 [B3 [_ [_ [B7 B8]]]]]]]]]].
  destruct (do_swap_pend _ _ _ _ E) as [Q1 Q2].
  assert (R1 : remembered k1 code d dl 0).
  { unfold remembered. rewrite B2. eapply do_swap_own; eauto using pressed_uniq; [apply P|].
    destruct Pr as [q [i [-> [Hi _]]]]. cbn [k_cache set_k_cache].
    rewrite <- (nth_upd_same i (mkCe code d dl 0) zero_ce (k_cache k) Hi) at 1. apply nth_In. now rewrite upd_length. }
  assert (D1 : decided k1 code).
  { destruct Pr as [q [i [-> [Hi [Hz Hq]]]]]. destruct Hy as [_ [[Hp Hst] _]]. unfold decided, striking.
    rewrite B7, Q1, B8, Q2. cbn [k_pend k_chord set_k_cache set_k_chord]. rewrite Hp, Hq, Hst.
    split; [intros X; apply (proj1 P); auto|]. split; [rewrite (reach_pqueue _ _ _ Hr Hp); intros e []|].
    intros [X|X]; discriminate X. }
  pose proof (reach_uniq _ _ _ Hr1) as [U1 A1].
  assert (K1 : kept True code d dl 0 k1).
  { split; [repeat split; auto|]. split; [exact R1|apply D1]. }
  destruct (meanwhile_kept True code d dl 0 (proj1 P) (or_intror eq_refl) G k1 k2 P (or_introl Logic.I) M K1 D1)
    as [[[U2 _] [R2 _]] D2].
  destruct (release_decided _ _ _ _ _ _ _ _ _ U2 (proj1 P) R2 D2 Hch Hu Hn H2) as [q [ca [k' [_ [E1 ->]]]]].
  unfold do_desc, pd_fuel in E1. apply pd_unfold in E1 as [ka [kb [E3 [-> E4]]]].
  destruct Hs as [->|[m ->]]; apply Ok_inj in E3; subst ka.
  - unfold pd_swap in E4. apply Ok_inj in E4. subst kb. split; [reflexivity|]. split; [|reflexivity].
    exists []. split; reflexivity.
  - bstep E4 mm Em. unfold pd_swap in E4. apply Ok_inj in E4. subst kb.
    assert (Gr : keys_grow (set_k_cache ca (set_k_chord q k2))
        match mm with
        | [mkM MKeySeq data] => update_mods false (send_key (set_k_cache ca (set_k_chord q k2)) (data mod 256) false) None 0
        | _ => set_k_cache ca (set_k_chord q k2)
        end).
    { destruct mm as [|[[] dt] [|]]; try apply keys_grow_refl.
      eapply keys_grow_trans; [apply send_key_grow|apply update_mods_grow]. }
    destruct Gr as [x [y [o [Eo Ho]]]]. rewrite Eo. split; [reflexivity|]. split; [|discriminate].
    exists o. split; [reflexivity|now apply switches_none].
Qed.

(* ---- examples ---------------------------------------------------------------------- *)
Definition ex61_cfg : config := cfg_of (bs "[main]
q = toggle(nav)
w = layer(nav)
e = oneshot(nav)
p = swap(nav)
[nav]
s = swap(sym)
u = toggle(nav)
[sym:S]
z = swap(nav)
").
Definition keepsb (k : kbd) (c : N) (i : nat) : bool :=
  negb (c =? 0) && existsb (fun e => (ce_code e =? c) && Nat.eqb (ce_layer e) i) (k_cache k).
Lemma keepsb_ok k c i : keepsb k c i = true -> keeps k c i.
Proof.
  unfold keepsb, keeps. rewrite andb_true_iff, negb_true_iff, N.eqb_neq, existsb_exists. intros [H [e [H1 H2]]].
  rewrite andb_true_iff, N.eqb_eq, Nat.eqb_eq in H2. split; [exact H|]. exists e. tauto.
Qed.
Example C61_toggled_example :
  exists k k' t, reach anyc ex61_cfg k /\ ready k 31 60 /\ resolves k 31 (DSwap 7) 6
    /\ process_event 20 k 31 true 60%Z = Ok (k', t)
    /\ toggled k 6 = true /\ count k 6 = 1 /\ toggled k' 6 = false /\ count k' 6 = 0 /\ toggled k' 7 = true /\ count k' 7 = 1
    /\ host_down (k_out k) 42 = false /\ host_down (k_out k') 42 = true.
Proof.
  destruct (press_ex ex61_cfg [[D 16 5; U 16 6]] 31 60 (DSwap 7) 6
    (fun k k' t => toggled k 6 && (count k 6 =? 1) && negb (toggled k' 6) && (count k' 6 =? 0) && toggled k' 7 && (count k' 7 =? 1)
       && negb (host_down (k_out k) 42) && host_down (k_out k') 42))
    as [k [k' [t [_ [H1 [H2 [H3 [H4 H5]]]]]]]].
  - vm_compute. reflexivity.
  - exists k, k', t. bsplit. repeat (split; [assumption|]). assumption.
Qed.
Example C61_oneshot_example :
  exists k k' t, reach anyc ex61_cfg k /\ ready k 31 60 /\ resolves k 31 (DSwap 7) 6
    /\ process_event 20 k 31 true 60%Z = Ok (k', t)
    /\ toggled k 6 = false /\ oneshots k 6 = 1 /\ oneshots k' 6 = 0 /\ count k' 6 = 0 /\ oneshots k' 7 = 1 /\ count k' 7 = 1.
Proof.
  destruct (press_ex ex61_cfg [[D 18 5; U 18 6]] 31 60 (DSwap 7) 6
    (fun k k' t => negb (toggled k 6) && (oneshots k 6 =? 1) && (oneshots k' 6 =? 0) && (count k' 6 =? 0) && (oneshots k' 7 =? 1)
      && (count k' 7 =? 1))) as [k [k' [t [_ [H1 [H2 [H3 [H4 H5]]]]]]]].
  - vm_compute. reflexivity.
  - exists k, k', t. bsplit. repeat (split; [assumption|]). assumption.
Qed.
(* w held: after the swap it holds sym *)
Example C61_held_example :
  exists k k' t, reach anyc ex61_cfg k /\ ready k 31 60 /\ resolves k 31 (DSwap 7) 6
    /\ process_event 20 k 31 true 60%Z = Ok (k', t)
    /\ toggled k 6 = false /\ oneshots k 6 = 0 /\ ordinary k 6 /\ keeps k 17 6 /\ keeps k' 17 7
    /\ count k' 6 = 0 /\ count k' 7 = 1.
Proof.
  destruct (press_ex ex61_cfg [[D 17 5]] 31 60 (DSwap 7) 6
    (fun k k' t => negb (toggled k 6) && (oneshots k 6 =? 0) && is_normal (ly_type (layer_of k 6)) && keepsb k 17 6 && keepsb k' 17 7
      && (count k' 6 =? 0) && (count k' 7 =? 1))) as [k [k' [t [_ [H1 [H2 [H3 [H4 H5]]]]]]]].
  - vm_compute. reflexivity.
  - exists k, k', t. bsplit. repeat match goal with X : keepsb _ _ _ = true |- _ => apply keepsb_ok in X end.
    assert (ordinary k 6). { split; [discriminate|]. destruct (ly_type (layer_of k 6)); auto; discriminate. }
    repeat (split; [assumption|]). assumption.
Qed.
(* nothing keeps main on but itself *)
Example C61_nothing_example :
  exists k k' t, reach anyc ex61_cfg k /\ ready k 25 60 /\ resolves k 25 (DSwap 6) 0
    /\ process_event 20 k 25 true 60%Z = Ok (k', t)
    /\ toggled k 0 = false /\ oneshots k 0 = 0 /\ ~ ordinary k 0 /\ k_out k <> [] /\ k_out k' = k_out k.
Proof.
  destruct (press_ex ex61_cfg [[D 30 5]] 25 60 (DSwap 6) 0
    (fun k k' t => negb (toggled k 0) && (oneshots k 0 =? 0) && negb (Nat.eqb (List.length (k_out k)) 0)
       && Nat.eqb (List.length (k_out k')) (List.length (k_out k)))) as [k [k' [t [_ [H1 [H2 [H3 [H4 H5]]]]]]]].
  - vm_compute. reflexivity.
  - exists k, k', t. bsplit.
    assert (O : ~ ordinary k 0) by (intros [X _]; now apply X).
    pose proof (C61_nothing _ _ _ _ _ _ _ 6 _ _ _ H1 H2 (or_introl eq_refl) H3 H H6 (or_introl O) H4) as [_ [_ [_ X]]].
    repeat (split; [assumption|]). split; [intros Y; rewrite Y in *; contradiction|]. now apply X.
Qed.
(* w held while nav is swapped for sym and back, and again: it holds sym in the end *)
Example C61_release_example :
  exists k k1 t1 k2 k3 t3, reach anyc ex61_cfg k /\ ready k 17 10 /\ resolves k 17 (DLayer 6) 0
    /\ process_event 20 k 17 true 10%Z = Ok (k1, t1) /\ meanwhile anyc 17 k1 k2
    /\ h_state (k_chord k2) = CsInactive /\ unchorded k2 17 /\ nothing_due k2 90
    /\ process_event 20 k2 17 false 90%Z = Ok (k3, t3)
    /\ keeps k2 17 7 /\ count k2 6 = 0 /\ count k2 7 = 1 /\ count k3 7 = 0.
Proof.
  destruct (check_run_ok ex61_cfg [[]]
    (fun k => readyb k 17 10 && looksb k 17 (DLayer 6) 0
       && press_meanwhile_release k 17 10 [D 31 20; U 31 30; D 44 40; U 44 50; D 31 60] 90
            (fun k2 k3 => idleb k2 && unchordedb k2 17 && quietb k2 90 && keepsb k2 17 7 && (count k2 6 =? 0) && (count k2 7 =? 1)
               && (count k3 7 =? 0))))
    as [k [Hr Hk]].
  - vm_compute. reflexivity.
  - rewrite !andb_true_iff in Hk. destruct Hk as [[H1 H2] H3].
    apply (press_meanwhile_release_ok anyc) in H3 as [k1 [r1 [k2 [k3 [r3 [A1 [A2 [A3 A4]]]]]]]].
    rewrite !andb_true_iff in A4. destruct A4 as [[[[[[B1 B2] B3] B0] B4] B5] B6].
    apply N.eqb_eq in B4. apply N.eqb_eq in B5. apply N.eqb_eq in B6.
    assert (Hr' : reach anyc ex61_cfg k) by now apply run_to_reach.
    exists k, k1, r1, k2, k3, r3. apply idleb_ok in B1.
    repeat (split; [eauto using readyb_ok, looksb_ok, unchordedb_ok, quietb_ok, keepsb_ok; try apply B1|]). exact B6.
Qed.

(* The key chosen to hand over its layer need not be one that still holds it: a toggle
   key remembers the layer it switched on until it is released, even if the layer was
   toggled off meanwhile.  Then the key really holding the layer deactivates it a second
   time and the daemon stops (q toggles nav on and stays pressed, u toggles it off, w
   holds it, s swaps it, w is released). *)
Theorem C61_abort_refuted :
  exists k, reach anyc ex61_cfg k /\ keeps k 17 6 /\ count k 6 = 0 /\ count k 7 = 1
    /\ kbd_process_events 20 k [U 17 90] = Crash CLayerInactive.
Proof.
  destruct (check_run_ok ex61_cfg [[D 45 10; D 16 20; U 45 30; D 22 40; U 22 50; D 17 60; D 31 70; U 31 80]]
    (fun k => keepsb k 17 6 && (count k 6 =? 0) && (count k 7 =? 1) && stopb (kbd_process_events 20 k [U 17 90]) CLayerInactive))
    as [k [H1 H2]].
  - vm_compute. reflexivity.
  - exists k. bsplit. split; [now apply run_to_reach|]. auto using keepsb_ok, stopb_ok.
Qed.

Definition C61_all := (C61_toggled, C61_oneshot, C61_held, C61_nothing, C61_modifiers, C61_release, C61_own_release, C61_abort_refuted).
Print Assumptions C61_all.
