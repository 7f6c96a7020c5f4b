(* Effects of single actions on the layer state, from process_descriptor. *)
From Verif Require Import Base Lib Keys Types MacroExec Kbd SpecMods SpecLookup SpecHist SpecActions
  ModsProofs Engine SpecWf Wf ActProofs.

(* rewrite the key-sending functions as changes of key state only *)
Ltac kos :=
  repeat match goal with
  | H : context [update_mods ?a ?b ?c ?d] |- _ =>
      let l := fresh "kl" in let s := fresh "ksf" in let o := fresh "ko" in
      destruct (update_mods_only a b c d) as [l [s [o ->]]]
  | |- context [update_mods ?a ?b ?c ?d] =>
      let l := fresh "kl" in let s := fresh "ksf" in let o := fresh "ko" in
      destruct (update_mods_only a b c d) as [l [s [o ->]]]
  | H : context [send_key ?a ?b ?c] |- _ =>
      let l := fresh "kl" in let s := fresh "ksf" in let o := fresh "ko" in
      destruct (send_key_only a b c) as [l [s [o ->]]]
  | |- context [send_key ?a ?b ?c] =>
      let l := fresh "kl" in let s := fresh "ksf" in let o := fresh "ko" in
      destruct (send_key_only a b c) as [l [s [o ->]]]
  | H : context [execute_macro ?a ?b ?c] |- _ =>
      let l := fresh "kl" in let s := fresh "ksf" in let o := fresh "ko" in
      destruct (execute_macro_only a b c) as [l [s [o ->]]]
  | |- context [execute_macro ?a ?b ?c] =>
      let l := fresh "kl" in let s := fresh "ksf" in let o := fresh "ko" in
      destruct (execute_macro_only a b c) as [l [s [o ->]]]
  end.

(* the state without pending oneshots *)
Definition oneshots_ended (k k' : kbd) : Prop :=
  k_latch k' = false /\ k_oneshot_to k' = 0%Z
  /\ forall i, is_layer k i -> oneshots k' i = 0%N /\ (oneshots k i <= count k i)%N
       /\ toggled k' i = toggled k i /\ count k' i = (count k i - oneshots k i)%N.

Lemma clear_oneshot_ended k k' : clear_oneshot k = Ok k' -> oneshots_ended k k'.
Proof.
  intros H. apply clear_oneshot_ok in H as [ls [ns [-> [_ [H _]]]]].
  split; [reflexivity|]. split; [reflexivity|]. intros i Hi. destruct (H i Hi) as [E1 E2].
  unfold oneshots, count, toggled. cbn [k_ls set_k_oneshot_to set_k_latch lsn set_k_out set_k_ls].
  rewrite E1. auto.
Qed.

(* only the key state, trace and clock-like fields differ *)
Lemma ended_ls k1 k k' : k_ls k1 = k_ls k -> k_cfg k1 = k_cfg k -> oneshots_ended k1 k' -> oneshots_ended k k'.
Proof. intros E1 E2. unfold oneshots_ended, is_layer, oneshots, count, toggled. now rewrite E1, E2. Qed.

Lemma pd_unfold fuel k code d dl pressed time k' :
  process_descriptor (S fuel) k code d dl pressed time = Ok k' ->
  exists k0 k1, pre_macro d pressed dl k = Ok k0
    /\ k' = (if pressed then set_k_last_code code k1 else k1)
    /\ match d with
        | DNone => Ok k0
        | DKey c mods => pd_key k0 c mods dl pressed time
        | DScroll s =>
            Ok (set_k_scroll (set_s_active pressed (set_s_sens s (k_scroll k0))) k0)
        | DScrollToggle s =>
            let sc := set_s_sens s (k_scroll k0) in
            Ok (set_k_scroll
                  (if pressed then set_s_active (negb (s_active sc)) sc else sc) k0)
        | DOverloadI a1 a2 t =>
            if pressed then
              action <- desc_at k0 (if (t <=? time - k_last_simple k0)%Z then a2 else a1) ;;
              k1 <- process_descriptor fuel k0 code action dl true time ;;
              Ok (cache_replace_d k1 code action)
            else Ok k0
        | DOverloadT l a t =>
            if pressed then
              action <- desc_at k0 a ;;
              set_pending k0 code dl (time + t)%Z PkUninterruptible action (DLayer l)
            else Ok k0
        | DOverloadT2 l a t =>
            if pressed then
              action <- desc_at k0 a ;;
              set_pending k0 code dl (time + t)%Z PkTap2 action (DLayer l)
            else Ok k0
        | DLayout l => if pressed then setlayout k0 l else Ok k0
        | DLayerM l _ | DLayer l => pd_layer k0 code l pressed
        | DClearM m =>
            if pressed then
              mm <- macro_at k0 m ;;
              k1 <- clear k0 ;;
              Ok (execute_macro k1 dl mm)
            else Ok k0
        | DClear => if pressed then clear k0 else Ok k0
        | DOverload l a =>
            action <- desc_at k0 a ;;
            if pressed then
              k1 <- activate_layer (set_k_ovl_start time k0) code l ;;
              Ok (update_mods false k1 None 0)
            else
              k1 <- deactivate_layer k0 l ;;
              let k2 := update_mods false k1 None 0 in
              if (k_last_code k2 =? code)%N
                 && ((c_tap_timeout (k_cfg k2) =? 0)%Z
                     || (time - k_ovl_start k2 <? c_tap_timeout (k_cfg k2))%Z)
              then
                match action with
                | DMacro m => mm <- macro_at k2 m ;; Ok (execute_macro k2 dl mm)
                | _ =>
                    k3 <- process_descriptor fuel k2 code action dl true time ;;
                    process_descriptor fuel k3 code action dl false time
                end
              else Ok k2
        | DOneshotM l _ | DOneshot l => pd_oneshot k0 code l dl pressed time
        | DMacro2 t r m => pd_macro k0 m t r dl pressed time
        | DMacro m =>
            pd_macro k0 m (c_macro_timeout (k_cfg k0)) (c_macro_repeat (k_cfg k0)) dl pressed time
        | DToggleM l _ | DToggle l => pd_toggle k0 code l pressed
        | DTimeout a1 t a2 =>
            if pressed then
              x1 <- desc_at k0 a1 ;;
              x2 <- desc_at k0 a2 ;;
              set_pending k0 code dl (time + t)%Z PkInterrupt1 x1 x2
            else Ok k0
        | DCommand c =>
            if pressed then
              cmd <- cmd_at k0 c ;;
              k1 <- clear_oneshot (emit (OCmd cmd) k0) ;;
              Ok (update_mods false k1 None 0)
            else Ok k0
        | DSwap l => pd_swap k0 l dl None pressed
        | DSwapM l m => mm <- macro_at k0 m ;; pd_swap k0 l dl (Some mm) pressed
        end = Ok k1.
Proof.
  intros H. cbn [process_descriptor] in H. bstep H k0 E0. bstep H k1 E1. apply Ok_inj in H.
  exists k0, k1. split; [exact E0|]. split; [congruence|]. exact E1.
Qed.

Lemma pre_macro_only d pressed dl k k0 : pre_macro d pressed dl k = Ok k0 -> keys_only k k0.
Proof.
  unfold pre_macro. intros H. destruct pressed; [|apply Ok_inj in H; subst; apply keys_only_refl].
  destruct d; try (apply Ok_inj in H; subst; apply keys_only_refl);
    (bstep H mm E; apply Ok_inj in H; subst; apply execute_macro_only).
Qed.

(* press of a key sequence, macro or command *)
Lemma pd_key_ended k c mods dl time k' : pd_key k c mods dl true time = Ok k' -> oneshots_ended k k'.
Proof.
  unfold pd_key. intros H. bstep H k1 E. apply Ok_inj in H. subst k'.
  assert (Hb : exists l s o, send_key (update_mods false (if k_ks k c then send_key k c false else k) (Some dl) mods) c true
                = kk l s o k).
  { eapply keys_only_trans; [|apply send_key_only]. eapply keys_only_trans; [|apply update_mods_only].
    destruct (k_ks k c); auto using send_key_only, keys_only_refl. }
  destruct Hb as [l [s [o Hb]]]. rewrite Hb in E. apply clear_oneshot_ended in E.
  apply (ended_ls (kk l s o k) k) in E; auto.
  destruct ((mods =? 0) || (mods =? MOD_SHIFT))%N; exact E.
Qed.
Lemma pd_macro_ended k m a b dl time k' : pd_macro k m a b dl true time = Ok k' -> oneshots_ended k k'.
Proof.
  unfold pd_macro. intros H. bstep H mm Em. bstep H k1 E. unfold schedule_timeout in H.
  destruct (Nat.ltb _ _); [|discriminate H]. apply Ok_inj in H. subst k'.
  apply clear_oneshot_ended in E. apply (ended_ls _ k) in E; auto.
  destruct (execute_macro_only k1 dl mm) as [l [s [o ->]]]. exact E.
Qed.

Lemma pd_toggle_ok k code idx k' : pd_toggle k code idx true = Ok k' ->
  k_latch k' = false /\ k_oneshot_to k' = 0%Z
  /\ (is_layer k idx ->
      oneshots k' idx = 0%N /\ toggled k' idx = negb (toggled k idx)
      /\ (toggled k idx = true -> (oneshots k idx < count k idx)%N
           /\ count k' idx = (count k idx - 1 - oneshots k idx)%N)
      /\ (toggled k idx = false -> (oneshots k idx <= (count k idx + 1) mod 256)%N
           /\ count k' idx = ((count k idx + 1) mod 256 - oneshots k idx)%N))
  /\ forall i, is_layer k i -> i <> idx -> oneshots k' i = 0%N /\ toggled k' i = toggled k i
       /\ (oneshots k i <= count k i)%N /\ count k' i = (count k i - oneshots k i)%N.
Proof.
  unfold pd_toggle. intros H. bstep H u Eu. bstep H k2 E2.
  apply clear_oneshot_ended in H. destruct (update_mods_only false k2 None 0) as [l [s [o Eq]]].
  apply (ended_ls _ k2) in H; [|rewrite Eq; reflexivity..]. clear Eq. destruct H as [H1 [H2 H3]].
  split; auto. split; auto. unfold is_layer, oneshots, toggled, count in *.
  assert (G : k_cfg k2 = k_cfg k
    /\ (forall j, j <> idx -> k_ls k2 j = k_ls k j)
    /\ (l_toggled (k_ls k idx) = true -> l_active (k_ls k idx) <> 0%N /\
        k_ls k2 idx = mkLst (l_time (k_ls k idx)) (l_active (k_ls k idx) - 1) false (l_depth (k_ls k idx)))
    /\ (l_toggled (k_ls k idx) = false ->
        k_ls k2 idx = mkLst (k_clock k) ((l_active (k_ls k idx) + 1) mod 256) true (l_depth (k_ls k idx)))).
  { destruct (l_toggled (k_ls k idx)) eqn:Et.
    - apply deactivate_ok in E2 as [Ha [b ->]]. cbn [lsn set_k_out set_k_ls k_cfg k_ls set_lsi] in *.
      rewrite nupd_same in *. split; auto. split; [intros j Hj; now rewrite !nupd_other|].
      split; [|discriminate]. intros _. split; [exact Ha|]. rewrite nupd_same. reflexivity.
    - apply activate_ok in E2 as [b ->].
      cbn [set_k_cache set_k_clock lsn set_k_out set_k_ls k_cfg k_ls set_lsi k_clock].
      split; auto. split; [intros j Hj; now rewrite !nupd_other|].
      split; [discriminate|]. intros _. rewrite !nupd_same. reflexivity. }
  destruct G as [G1 [G2 [G3 G4]]]. rewrite G1 in H3. split.
  - intros Hi. destruct (H3 idx Hi) as [A1 [A2 [A3 A4]]]. split; auto.
    destruct (l_toggled (k_ls k idx)) eqn:Et.
    + destruct (G3 eq_refl) as [G5 G6]. rewrite G6 in *. cbn [l_toggled l_active l_depth negb] in *.
      split; [auto|]. split; [|discriminate]. intros _. split; [lia|auto].
    + rewrite (G4 eq_refl) in *. cbn [l_toggled l_active l_depth negb] in *.
      split; [auto|]. split; [discriminate|]. auto.
  - intros i Hi Hn. destruct (H3 i Hi) as [A1 [A2 [A3 A4]]]. rewrite (G2 i Hn) in *. auto.
Qed.

Lemma press_ends fuel k code d dl time k' : ends_oneshot d ->
  process_descriptor (S fuel) k code d dl true time = Ok k' ->
  k_latch k' = false /\ k_oneshot_to k' = 0%Z /\ forall i, is_layer k i -> oneshots k' i = 0%N.
Proof.
  intros Hd H. apply pd_unfold in H as [k0 [k1 [E0 [-> E1]]]].
  apply pre_macro_only in E0 as [l [s [o ->]]].
  assert (G : forall k1, oneshots_ended (kk l s o k) k1 ->
     k_latch k1 = false /\ k_oneshot_to k1 = 0%Z /\ forall i, is_layer k i -> oneshots k1 i = 0%N).
  { intros k2 [A1 [A2 A3]]. split; auto. split; auto. intros i Hi. now destruct (A3 i Hi). }
  assert (Gt : forall idx k1, pd_toggle (kk l s o k) code idx true = Ok k1 ->
     k_latch k1 = false /\ k_oneshot_to k1 = 0%Z /\ forall i, is_layer k i -> oneshots k1 i = 0%N).
  { intros idx k2 Ht. apply pd_toggle_ok in Ht as [A1 [A2 [A3 A4]]]. split; auto. split; auto.
    intros i Hi. destruct (Nat.eq_dec i idx) as [->|Hne]; [now apply A3|now apply A4]. }
  destruct Hd.
  - refine (G k1 _). eapply pd_key_ended; eauto.
  - refine (G k1 _). eapply pd_macro_ended; eauto.
  - refine (G k1 _). eapply pd_macro_ended; eauto.
  - bstep E1 cmd Ec. bstep E1 k2 E2. apply Ok_inj in E1. subst k1.
    apply clear_oneshot_ended in E2.
    destruct (update_mods_only false k2 None 0) as [l2 [s2 [o2 ->]]]. apply (G _) in E2. exact E2.
  - exact (Gt _ k1 E1).
  - exact (Gt _ k1 E1).
Qed.

(* counts after a key sequence, macro or command press *)
Lemma press_ends_counts fuel k code d dl time k' : ends_oneshot d -> (forall l, ~ toggle_of d l) ->
  process_descriptor (S fuel) k code d dl true time = Ok k' ->
  forall i, is_layer k i -> (oneshots k i <= count k i)%N /\ count k' i = (count k i - oneshots k i)%N
     /\ toggled k' i = toggled k i.
Proof.
  intros Hd Hnt H. apply pd_unfold in H as [k0 [k1 [E0 [-> E1]]]].
  apply pre_macro_only in E0 as [l [s [o ->]]].
  assert (G : forall k1, oneshots_ended (kk l s o k) k1 ->
     forall i, is_layer k i -> (oneshots k i <= count k i)%N /\ count k1 i = (count k i - oneshots k i)%N
     /\ toggled k1 i = toggled k i).
  { intros k2 [A1 [A2 A3]] i Hi. destruct (A3 i Hi) as [B1 [B2 [B3 B4]]]. auto. }
  destruct Hd.
  - refine (G k1 _). eapply pd_key_ended; eauto.
  - refine (G k1 _). eapply pd_macro_ended; eauto.
  - refine (G k1 _). eapply pd_macro_ended; eauto.
  - bstep E1 cmd Ec. bstep E1 k2 E2. apply Ok_inj in E1. subst k1.
    apply clear_oneshot_ended in E2.
    destruct (update_mods_only false k2 None 0) as [l2 [s2 [o2 ->]]]. exact (G _ E2).
  - elim (Hnt l0). now left.
  - elim (Hnt l0). right. eauto.
Qed.

Lemma schedule_ok k t k' : schedule_timeout k t = Ok k' -> k' = set_k_timeouts (k_timeouts k ++ [t]) k.
Proof. unfold schedule_timeout. destruct (Nat.ltb _ _); [|discriminate]. intros H. now apply Ok_inj in H. Qed.

Lemma activate_depths k code i k' : activate_layer k code i = Ok k' ->
  forall j, oneshots k' j = oneshots k j /\ toggled k' j = toggled k j.
Proof.
  intros H j. apply activate_ok in H as [b ->]. unfold oneshots, toggled.
  cbn [set_k_cache set_k_clock lsn set_k_out set_k_ls k_ls]. unfold nupd.
  destruct (Nat.eqb_spec j i) as [->|]; auto.
Qed.
Lemma deactivate_depths k i k' : deactivate_layer k i = Ok k' ->
  forall j, oneshots k' j = oneshots k j /\ toggled k' j = toggled k j.
Proof.
  intros H j. apply deactivate_ok in H as [_ [b ->]]. unfold oneshots, toggled.
  cbn [lsn set_k_out set_k_ls k_ls]. unfold nupd. destruct (Nat.eqb_spec j i) as [->|]; auto.
Qed.

Lemma press_keeps fuel k code d dl time k' : keeps_oneshot d ->
  process_descriptor (S fuel) k code d dl true time = Ok k' ->
  forall i, oneshots k' i = oneshots k i /\ toggled k' i = toggled k i.
Proof.
  intros Hd H. apply pd_unfold in H as [k0 [k1 [E0 [-> E1]]]].
  apply pre_macro_only in E0 as [l [s [o ->]]].
  assert (GL : forall idx, pd_layer (kk l s o k) code idx true = Ok k1 ->
     forall i, oneshots k1 i = oneshots k i /\ toggled k1 i = toggled k i).
  { intros idx Hx i. unfold pd_layer in Hx. bstep Hx k2 E2. apply Ok_inj in Hx. subst k1.
    destruct (update_mods_only (k_last_code k2 =? code)%N k2 None 0) as [l2 [s2 [o2 ->]]].
    apply (activate_depths _ _ _ _ E2 i). }
  assert (GO : forall idx, pd_oneshot (kk l s o k) code idx dl true time = Ok k1 ->
     forall i, oneshots k1 i = oneshots k i /\ toggled k1 i = toggled k i).
  { intros idx Hx i. unfold pd_oneshot in Hx. bstep Hx k2 E2. apply Ok_inj in Hx. subst k1.
    destruct (update_mods_only false k2 (Some dl) 0) as [l2 [s2 [o2 ->]]].
    apply (activate_depths _ _ _ _ E2 i). }
  destruct Hd; try (intros i; now apply (GL _ E1)); try (intros i; now apply (GO _ E1)).
  - bstep E1 ac Ea. bstep E1 k2 E2. apply Ok_inj in E1. subst k1. intros i.
    destruct (update_mods_only false k2 None 0) as [l2 [s2 [o2 ->]]].
    apply (activate_depths _ _ _ _ E2 i).
  - bstep E1 ac Ea. unfold set_pending in E1. apply schedule_ok in E1. subst k1. auto.
  - bstep E1 ac Ea. unfold set_pending in E1. apply schedule_ok in E1. subst k1. auto.
  - bstep E1 ac Ea. bstep E1 ac2 Ea2. unfold set_pending in E1. apply schedule_ok in E1. subst k1. auto.
  - apply Ok_inj in E1. subst k1. auto.
  - apply Ok_inj in E1. subst k1. auto.
Qed.

(* oneshot(l): the press activates, the release latches or deactivates *)
Lemma oneshot_press fuel k code d l dl time k' : oneshot_of d l ->
  process_descriptor (S fuel) k code d dl true time = Ok k' ->
  k_latch k' = true /\ count k' l = ((count k l + 1) mod 256)%N
  /\ oneshots k' l = oneshots k l /\ forall i, i <> l -> count k' i = count k i.
Proof.
  intros Hd H. apply pd_unfold in H as [k0 [k1 [E0 [-> E1]]]].
  apply pre_macro_only in E0 as [l0 [s [o ->]]].
  assert (G : pd_oneshot (kk l0 s o k) code l dl true time = Ok k1).
  { destruct Hd as [->|[m ->]]; exact E1. }
  unfold pd_oneshot in G. bstep G k2 E2. apply Ok_inj in G. subst k1.
  apply activate_ok in E2 as [b ->].
  match goal with |- context [update_mods ?a ?b ?c ?d] =>
    destruct (update_mods_only a b c d) as [l2 [s2 [o2 ->]]] end.
  unfold count, oneshots. cbn [k_latch k_ls set_k_last_code set_k_latch kk set_k_out set_k_ks set_k_last_out
    set_k_cache set_k_clock lsn set_k_ls]. rewrite nupd_same. repeat split; auto.
  intros i Hi. now rewrite nupd_other.
Qed.
Lemma oneshot_release fuel k code d l dl time k' : oneshot_of d l ->
  process_descriptor (S fuel) k code d dl false time = Ok k' ->
  (k_latch k = true -> k_latch k' = true /\ (forall i, count k' i = count k i)
     /\ oneshots k' l = ((oneshots k l + 1) mod 256)%N /\ (forall i, i <> l -> oneshots k' i = oneshots k i)
     /\ k_out k' = k_out k
     /\ (c_oneshot_timeout (k_cfg k) <> 0%Z ->
           k_oneshot_to k' = (time + c_oneshot_timeout (k_cfg k))%Z
           /\ In (time + c_oneshot_timeout (k_cfg k))%Z (k_timeouts k')))
  /\ (k_latch k = false -> count k l <> 0%N /\ count k' l = (count k l - 1)%N
     /\ (forall i, i <> l -> count k' i = count k i) /\ forall i, oneshots k' i = oneshots k i).
Proof.
  intros Hd H. apply pd_unfold in H as [k0 [k1 [E0 [-> E1]]]]. apply Ok_inj in E0. subst k0.
  assert (G : pd_oneshot k code l dl false time = Ok k1).
  { destruct Hd as [->|[m ->]]; exact E1. }
  clear E1. unfold pd_oneshot in G. destruct (k_latch k) eqn:El; (split; [intros Hl|intros Hl]); try discriminate Hl.
  - bstep G u Eu.
    set (k2 := set_lsi l (set_l_depth ((l_depth (k_ls k l) + 1) mod 256) (k_ls k l)) k) in *.
    assert (G2 : (forall i, count k2 i = count k i) /\ oneshots k2 l = ((oneshots k l + 1) mod 256)%N
              /\ (forall i, i <> l -> oneshots k2 i = oneshots k i)).
    { subst k2. unfold count, oneshots. cbn [set_lsi set_k_ls k_ls]. split; [|split].
      - intros i. unfold nupd. destruct (Nat.eqb_spec i l) as [->|]; reflexivity.
      - now rewrite nupd_same.
      - intros i Hi. now rewrite nupd_other. }
    destruct G2 as [A1 [A2 A3]].
    destruct (Z.eqb_spec (c_oneshot_timeout (k_cfg k)) 0) as [Ez|Ez].
    + apply Ok_inj in G. subst k1. repeat split; auto; congruence.
    + apply schedule_ok in G. subst k1. repeat split; auto. apply in_or_app. right. now left.
  - bstep G k2 E2. apply Ok_inj in G. subst k1. apply deactivate_ok in E2 as [Ha [b ->]].
    match goal with |- context [update_mods ?a ?b ?c ?d] =>
      destruct (update_mods_only a b c d) as [l2 [s2 [o2 ->]]] end.
    unfold count, oneshots. cbn [k_ls kk set_k_out set_k_ks set_k_last_out lsn set_k_ls]. rewrite nupd_same.
    repeat split; auto.
    + intros i Hi. now rewrite nupd_other.
    + intros i. unfold nupd. destruct (Nat.eqb_spec i l) as [->|]; reflexivity.
Qed.

(* clear() *)
Lemma pd_clear_ok k k' : clear k = Ok k' ->
  (forall c, (c < 256)%N -> k_ks k' c = false) /\ k_amacro k' = None
  /\ k_latch k' = false /\ k_oneshot_to k' = 0%Z
  /\ (forall i, is_layer k i -> oneshots k' i = 0%N)
  /\ (forall i, is_layer k i -> i <> 0 -> is_layout (ly_type (layer_of k i)) = false ->
        toggled k' i = false
        /\ ((if toggled k i then 1 else 0) + oneshots k i <= count k i)%N
        /\ count k' i = (count k i - oneshots k i - (if toggled k i then 1 else 0))%N)
  /\ (forall i, is_layer k i -> i = 0 \/ is_layout (ly_type (layer_of k i)) = true ->
        count k' i = (count k i - oneshots k i)%N).
Proof.
  intros H. apply clear_ok in H as [ls [ns [-> [_ [H1 H2]]]]].
  match goal with |- context [reset_keystate ?a] => set (k2 := a) end.
  destruct (reset_keystate_grow k2) as [l [s [o [Eq _]]]].
  assert (Hls : k_ls (reset_keystate k2) = ls) by (rewrite Eq; reflexivity).
  split; [intros; now apply reset_keystate_ks|].
  split; [rewrite Eq; reflexivity|]. split; [rewrite Eq; reflexivity|]. split; [rewrite Eq; reflexivity|].
  unfold oneshots, toggled, count, layer_of, is_layer. rewrite Hls. unfold layer_at in H1. split; [|split].
  - intros i Hi. destruct (H1 i Hi) as [A1 [A2 A3]].
    destruct (Nat.eq_dec i 0) as [Hz|Hz]; [now rewrite A3 by auto|].
    destruct (is_layout (ly_type (nth i (c_layers (k_cfg k)) zero_layer))) eqn:El.
    + now rewrite A3 by auto.
    + destruct (A2 Hz eq_refl) as [-> _]. unfold untoggled. destruct (l_toggled (cleared _)); reflexivity.
  - intros i Hi Hz Hl. destruct (H1 i Hi) as [A1 [A2 A3]]. destruct (A2 Hz Hl) as [-> A4].
    unfold untoggled, cleared. cbn [l_toggled]. destruct (l_toggled (k_ls k i)).
    + cbn [l_toggled l_active]. specialize (A4 eq_refl). repeat split; lia.
    + cbn [l_toggled l_active]. repeat split; lia.
  - intros i Hi Hz. destruct (H1 i Hi) as [A1 [A2 A3]]. now rewrite A3 by auto.
Qed.
