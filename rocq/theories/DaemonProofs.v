(* The main loop and the daemon: panic sequence, timers, held keys, pointers. *)
From Verif Require Import Base Lib Types Keys MacroExec Kbd Str MacroParse Config Match Device Daemon SpecDaemon.
Local Open Scope N_scope.

(* ---- C42 -------------------------------------------------------------------------- *)
(* calls of the handler leave the reading side alone *)
Lemma call_same fuel wr ev ts l l' : call fuel wr ev ts l = Ok l' ->
  lp_de l' = lp_de l /\ lp_panic l' = lp_panic l /\ lp_dead l' = lp_dead l /\ lp_reads l' = lp_reads l.
Proof. unfold call. intros H. bauto H. auto. Qed.
Lemma calls_same fuel wr evs : forall ts l l', calls fuel wr evs ts l = Ok l' ->
  lp_de l' = lp_de l /\ lp_panic l' = lp_panic l /\ lp_dead l' = lp_dead l /\ lp_reads l' = lp_reads l.
Proof.
  induction evs as [|e r IH]; cbn [calls]; intros ts l l' H.
  - apply Ok_inj in H. subst. auto.
  - destruct (call fuel wr e ts l) as [l1| | |] eqn:E; cbn [bind] in H; try discriminate H.
    apply call_same in E as (A & B & C & D). apply IH in H as (A' & B' & C' & D').
    rewrite A', B', C', D'. auto.
Qed.
Lemma add_same fuel wr devs : forall ts l l', add_devices fuel wr devs ts l = Ok l' ->
  lp_de l' = lp_de l /\ lp_panic l' = lp_panic l /\ lp_dead l' = lp_dead l /\ lp_reads l' = lp_reads l.
Proof.
  induction devs as [|[dv g] r IH]; cbn [add_devices]; intros ts l l' H.
  - apply Ok_inj in H. subst. auto.
  - destruct (Nat.ltb _ 64); [|discriminate H].
    destruct (call _ _ _ _ _) as [l1| | |] eqn:E; cbn [bind] in H; try discriminate H.
    apply call_same in E as (A & B & C & D). apply IH in H as (A' & B' & C' & D').
    rewrite A', B', C', D'. auto.
Qed.

Definition trio (c : N) : bool := (c =? 14) || (c =? 1) || (c =? 28).

Lemma read_code_trio c k : read_code c = Some k -> trio k = true -> c = k.
Proof.
  unfold read_code. destruct (c <? 256); [now intros [= ->]|].
  destruct (assoc high_codes c) as [v|] eqn:Ea.
  - intros [= ->] Ht.
    assert (K : forallb (fun '(_, v) => negb (trio v)) high_codes = true) by reflexivity.
    rewrite forallb_forall in K.
    assert (Hin : In (c, k) high_codes).
    { clear -Ea. revert Ea. generalize high_codes as l. induction l as [|[a b] l IH]; cbn [assoc]; [discriminate|].
      destruct (N.eqb_spec a c) as [->|]; [|intros; right; auto]. intros [= ->]. now left. }
    specialize (K _ Hin). cbn beta iota in K. rewrite Ht in K. discriminate K.
  - destruct (_ && _) eqn:Er; [|discriminate]. intros [= <-] Ht. exfalso.
    apply andb_true_iff in Er as [E1 E2]. apply N.leb_le in E1, E2.
    unfold trio in Ht. rewrite !orb_true_iff, !N.eqb_eq in Ht.
    assert (c mod 256 = c - 256) as E. { symmetry. apply (N.mod_unique _ _ 1); lia. }
    rewrite E in Ht. lia.
Qed.
Lemma read_code_self c : trio c = true -> read_code c = Some c.
Proof.
  intros H. unfold read_code. assert (c < 256) as L.
  { unfold trio in H. rewrite !orb_true_iff, !N.eqb_eq in H. lia. }
  apply N.ltb_lt in L. now rewrite L.
Qed.

(* the recorded state of a key of the trio *)
Definition pstate (s : panic) (c : N) : N :=
  if c =? 28 then pn_enter s else if c =? 14 then pn_backspace s else pn_escape s.

Lemma down_snoc rs r c : down (rs ++ [r]) c =
  match raw_key r with Some (k, p) => if k =? c then p else down rs c | None => down rs c end.
Proof. unfold down. now rewrite fold_left_app. Qed.
Lemma reads_cons l r i : map snd (rev ((i, r) :: lp_reads l)) = reads_of l ++ [r].
Proof. cbn [rev]. now rewrite map_app. Qed.

Record pinv (l : lstate) : Prop := {
  pi_state : forall c, trio c = true -> (pstate (lp_panic l) c =? 0) = negb (down (reads_of l) c);
  pi_static : forall c, trio c = true -> de_code (lp_de l) = c -> de_pressed (lp_de l) = pstate (lp_panic l) c;
  pi_before : forall a b, reads_of l = a ++ b -> b <> [] -> panicked a = false;
  pi_dead : lp_dead l = panicked (reads_of l) }.

Lemma panic_check_state s code pressed s' die : panic_check s code pressed = (s', die) ->
  (forall c, trio c = true -> pstate s' c = if code =? c then pressed else pstate s c) /\
  die = negb (pstate s' 14 =? 0) && negb (pstate s' 28 =? 0) && negb (pstate s' 1 =? 0).
Proof.
  unfold panic_check. intros [= <- <-]. split.
  - intros c Hc. unfold trio in Hc. rewrite !orb_true_iff, !N.eqb_eq in Hc.
    unfold K_ENTER, K_BACKSPACE, K_ESC.
    destruct (N.eqb_spec code 28) as [->|N1].
    { destruct Hc as [[->| ->]| ->]; reflexivity. }
    destruct (N.eqb_spec code 14) as [->|N2].
    { destruct Hc as [[->| ->]| ->]; reflexivity. }
    destruct (N.eqb_spec code 1) as [->|N3].
    { destruct Hc as [[->| ->]| ->]; reflexivity. }
    destruct (N.eqb_spec code c) as [->|_]; [|reflexivity].
    exfalso. destruct Hc as [[->| ->]| ->]; auto.
  - reflexivity.
Qed.

Lemma prefix_snoc {A} (l a b : list A) (x : A) : l ++ [x] = a ++ b -> b <> [] ->
  a = l \/ exists b', b' <> [] /\ l = a ++ b'.
Proof.
  intros E Hb. destruct (exists_last Hb) as (b' & y & ->).
  rewrite app_assoc in E. apply app_inj_tail in E as [-> ->].
  destruct b' as [|z b']; [left; now rewrite app_nil_r|right]. exists (z :: b'). easy.
Qed.

(* one read *)
Lemma u8_sane v : v = 0%Z \/ v = 1%Z \/ v = 2%Z -> (u8 v =? 0) = (v =? 0)%Z.
Proof. intros [->|[->| ->]]; reflexivity. Qed.

Lemma read_static ax de r de' ret : device_read_event ax de r = Ok (de', ret) -> sane_read r ->
  (forall c, trio c = true ->
     match raw_key r with
     | Some (k, p) => if k =? c then ret = true /\ de_type de' = DevKey /\ de_code de' = c /\ (de_pressed de' =? 0) = negb p
                      else de_code de' = c -> de_code de = c /\ de_pressed de' = de_pressed de
     | None => de_code de' = c -> de_code de = c /\ de_pressed de' = de_pressed de
     end).
Proof.
  intros H Hs c Hc. unfold device_read_event in H. destruct r as [e| |].
  2:{ apply Ok_inj in H. injection H as <- <-. cbn [raw_key]. auto. }
  2:{ apply Ok_inj in H. injection H as <- <-. cbn [raw_key]. auto. }
  destruct Hs as [Hv Hl]. cbn [raw_key].
  destruct (N.eqb_spec (ie_type e) EV_REL) as [Et|N1].
  { rewrite Et. change (EV_REL =? 1) with false. cbn [andb].
    destruct (_ =? REL_WHEEL); [apply Ok_inj in H; injection H as <- <-; cbn; auto|].
    destruct (_ =? REL_HWHEEL); [apply Ok_inj in H; injection H as <- <-; cbn; auto|].
    destruct (_ =? REL_X); [apply Ok_inj in H; injection H as <- <-; cbn; auto|].
    destruct (_ =? REL_Y); apply Ok_inj in H; injection H as <- <-; cbn; auto. }
  destruct (N.eqb_spec (ie_type e) EV_ABS) as [Et|N2].
  { rewrite Et. change (EV_ABS =? 1) with false. cbn [andb].
    destruct (_ =? ABS_X).
    { destruct (abs_scale _ _); cbn [bind] in H; try discriminate H. apply Ok_inj in H. injection H as <- <-. cbn. auto. }
    destruct (_ =? ABS_Y).
    { destruct (abs_scale _ _); cbn [bind] in H; try discriminate H. apply Ok_inj in H. injection H as <- <-. cbn. auto. }
    apply Ok_inj in H. injection H as <- <-. auto. }
  destruct (N.eqb_spec (ie_type e) EV_KEY) as [Et|N3].
  { rewrite Et. change (EV_KEY =? 1) with true. cbn [andb].
    destruct (ie_value e =? 2)%Z eqn:E2; cbn [negb].
    { apply Ok_inj in H. injection H as <- <-. auto. }
    destruct (read_code (ie_code e)) as [k|] eqn:Er.
    - apply Ok_inj in H. injection H as <- <-. cbn [de_code de_pressed de_type].
      destruct (N.eqb_spec (ie_code e) c) as [Ec|Nc].
      + rewrite Ec, (read_code_self c Hc) in Er. injection Er as <-.
        repeat split; auto. rewrite negb_involutive. apply u8_sane. auto.
      + intros ->. exfalso. apply Nc. eapply read_code_trio; eauto.
    - apply Ok_inj in H. injection H as <- <-.
      destruct (N.eqb_spec (ie_code e) c) as [Ec|Nc]; [|auto].
      rewrite Ec, (read_code_self c Hc) in Er. discriminate Er. }
  replace (ie_type e =? 1) with false by (symmetry; now apply N.eqb_neq). cbn [andb].
  destruct (N.eqb_spec (ie_type e) EV_LED) as [Et|N4].
  - apply Ok_inj in H. injection H as <- <-. cbn [de_code de_pressed].
    intros E. exfalso. destruct (Hl Et) as (L1 & L2 & L3). unfold trio in Hc.
    rewrite !orb_true_iff, !N.eqb_eq in Hc. lia.
  - apply Ok_inj in H. injection H as <- <-. auto.
Qed.

(* the state after one read that is not checked, or whose check changes nothing *)
Lemma pinv_read l i r de d tmo cs ax ret :
  pinv l -> lp_dead l = false -> sane_read r ->
  device_read_event ax (lp_de l) r = Ok (de, ret) ->
  (raw_key r = None \/ exists k p, raw_key r = Some (k, p) /\ trio k = false) ->
  pinv (mkL d tmo de (lp_panic l) (lp_dead l) ((i, r) :: lp_reads l) cs).
Proof.
  intros [P1 P2 P3 P4] Hd Hs Hr Hk.
  assert (D : forall c, trio c = true -> down (reads_of l ++ [r]) c = down (reads_of l) c).
  { intros c Hc. rewrite down_snoc. destruct Hk as [->|(k & p & -> & Ht)]; [reflexivity|].
    destruct (N.eqb_spec k c) as [->|]; [congruence|reflexivity]. }
  assert (Pn : panicked (reads_of l ++ [r]) = panicked (reads_of l)).
  { unfold panicked. now rewrite !D. }
  constructor; unfold reads_of; cbn [lp_reads lp_panic lp_de lp_dead]; rewrite ?reads_cons.
  - intros c Hc. rewrite D by exact Hc. auto.
  - intros c Hc E. pose proof (read_static _ _ _ _ _ Hr Hs c Hc) as K.
    destruct Hk as [Hn|(k & p & Hn & Ht)]; rewrite Hn in K.
    + destruct (K E) as [A ->]. auto.
    + destruct (N.eqb_spec k c) as [->|]; [congruence|]. destruct (K E) as [A ->]. auto.
  - intros a b E Hb. destruct (prefix_snoc _ _ _ _ E Hb) as [->|(b' & Hb' & E')]; [|eauto].
    rewrite <- P4. exact Hd.
  - rewrite Pn. exact P4.
Qed.

(* the state after a read whose event is checked *)
Lemma pinv_check l i r de ax s die d tmo cs :
  pinv l -> lp_dead l = false -> sane_read r ->
  device_read_event ax (lp_de l) r = Ok (de, true) ->
  panic_check (lp_panic l) (de_code de) (de_pressed de) = (s, die) ->
  pinv (mkL d tmo de s (lp_dead l || die) ((i, r) :: lp_reads l) cs).
Proof.
  intros [P1 P2 P3 P4] Hd Hs Hr Hp. apply panic_check_state in Hp as [Q1 Q2].
  assert (St : forall c, trio c = true -> (pstate s c =? 0) = negb (down (reads_of l ++ [r]) c)).
  { intros c Hc. rewrite Q1 by exact Hc. rewrite down_snoc.
    pose proof (read_static _ _ _ _ _ Hr Hs c Hc) as K.
    destruct (raw_key r) as [[k p]|].
    - destruct (N.eqb_spec k c) as [->|Nk].
      + destruct K as (_ & _ & -> & K). rewrite N.eqb_refl. exact K.
      + destruct (N.eqb_spec (de_code de) c) as [E|]; [|auto].
        destruct (K E) as [A ->]. rewrite (P2 _ Hc A). auto.
    - destruct (N.eqb_spec (de_code de) c) as [E|]; [|auto].
      destruct (K E) as [A ->]. rewrite (P2 _ Hc A). auto. }
  constructor; unfold reads_of; cbn [lp_reads lp_panic lp_de lp_dead]; rewrite ?reads_cons.
  - exact St.
  - intros c Hc E. rewrite Q1 by exact Hc. rewrite E, N.eqb_refl. reflexivity.
  - intros a b E Hb. destruct (prefix_snoc _ _ _ _ E Hb) as [->|(b' & Hb' & E')]; [|eauto].
    rewrite <- P4. exact Hd.
  - rewrite Hd. cbn [orb]. rewrite Q2. unfold panicked.
    rewrite (St 14), (St 28), (St 1) by reflexivity. rewrite !negb_involutive.
    destruct (down _ 14), (down _ 28), (down _ 1); reflexivity.
Qed.

Lemma pinv_ext l l' : lp_de l' = lp_de l -> lp_panic l' = lp_panic l -> lp_dead l' = lp_dead l ->
  lp_reads l' = lp_reads l -> pinv l -> pinv l'.
Proof.
  intros A B C D [P1 P2 P3 P4]. constructor; unfold reads_of in *; rewrite ?A, ?B, ?C, ?D; auto.
Qed.

Lemma dev_removed_none ax de r de' : device_read_event ax de r = Ok (de', true) -> de_type de' = DevRemoved ->
  raw_key r = None.
Proof.
  intros H T. unfold device_read_event in H. destruct r as [e| |]; [|reflexivity|reflexivity].
  cbn [raw_key]. destruct (N.eqb_spec (ie_type e) 1) as [Et|]; [|reflexivity]. cbn [andb].
  rewrite Et in H. change (1 =? EV_REL) with false in H. change (1 =? EV_ABS) with false in H.
  change (1 =? EV_KEY) with true in H. cbv iota in H.
  destruct (ie_value e =? 2)%Z; [reflexivity|].
  destruct (read_code _); apply Ok_inj in H; injection H as <-; [discriminate T|discriminate].
Qed.
Lemma not_returned ax de r de' : device_read_event ax de r = Ok (de', false) ->
  raw_key r = None \/ exists k p, raw_key r = Some (k, p) /\ trio k = false.
Proof.
  intros H. unfold device_read_event in H. destruct r as [e| |]; [|left; reflexivity|left; reflexivity].
  cbn [raw_key]. destruct (N.eqb_spec (ie_type e) 1) as [Et|]; [|left; reflexivity]. cbn [andb].
  rewrite Et in H. change (1 =? EV_REL) with false in H. change (1 =? EV_ABS) with false in H.
  change (1 =? EV_KEY) with true in H. cbv iota in H.
  destruct (ie_value e =? 2)%Z; [left; reflexivity|]. cbn [negb].
  destruct (read_code (ie_code e)) eqn:Er; [apply Ok_inj in H; discriminate H|].
  right. exists (ie_code e), (negb (ie_value e =? 0)%Z). split; [reflexivity|].
  destruct (trio (ie_code e)) eqn:Et'; [|reflexivity].
  rewrite (read_code_self _ Et') in Er. discriminate Er.
Qed.

Definition sane (l : lstate) : Prop := forall i r, In (i, r) (lp_reads l) -> sane_read r.

(* reads only grow *)
Lemma read_device_grows fuel wr i rs : forall ts l l', read_device fuel wr i rs ts l = Ok l' ->
  exists more, lp_reads l' = more ++ lp_reads l.
Proof.
  induction rs as [|r rs IH]; cbn [read_device]; intros ts l l' H.
  - apply Ok_inj in H. subst. now exists [].
  - destruct (nth_error _ _) as [dv|]; [|discriminate H].
    destruct (device_read_event _ _ _) as [[de ret]| | |]; cbn [bind] in H; try discriminate H.
    destruct ret; cbn [negb] in H; [|apply Ok_inj in H; subst; now exists [(i, r)]].
    assert (K : forall l2 l1, lp_reads l1 = (i, r) :: lp_reads l -> call fuel wr (EvDev i de) ts l1 = Ok l2 ->
       read_device fuel wr i rs ts l2 = Ok l' -> exists more, lp_reads l' = more ++ lp_reads l).
    { intros l2 l1 E1 E2 E3. apply IH in E3 as [more ->]. apply call_same in E2 as (_ & _ & _ & ->).
      rewrite E1. exists (more ++ [(i, r)]). now rewrite <- app_assoc. }
    destruct (de_type de).
    6:{ destruct (call _ _ _ _ _) as [l2| | |] eqn:E; cbn [bind] in H; try discriminate H.
        apply Ok_inj in H. subst. cbn [lp_reads]. apply call_same in E as (_ & _ & _ & ->).
        now exists [(i, r)]. }
    all: destruct (panic_check _ _ _) as [s die]; destruct die;
      [apply Ok_inj in H; subst; now exists [(i, r)]|];
      destruct (call _ _ _ _ _) as [l2| | |] eqn:E; cbn [bind] in H; try discriminate H;
      eapply K; [|exact E|exact H]; reflexivity.
Qed.

Lemma read_device_pinv fuel wr i rs : forall ts l l', read_device fuel wr i rs ts l = Ok l' ->
  sane l' -> lp_dead l = false -> pinv l -> pinv l'.
Proof.
  induction rs as [|r rs IH]; intros ts l l' H Hs Hd P.
  - cbn [read_device] in H. apply Ok_inj in H. now subst.
  - assert (Hsr : sane_read r).
    { (* the read is recorded *)
      clear IH P. cbn [read_device] in H.
      destruct (nth_error _ _) as [dv|]; [|discriminate H].
      destruct (device_read_event _ _ _) as [[de ret]| | |]; cbn [bind] in H; try discriminate H.
      assert (G : exists more, lp_reads l' = more ++ (i, r) :: lp_reads l).
      { destruct ret; cbn [negb] in H; [|apply Ok_inj in H; subst; now exists []].
        destruct (de_type de).
        6:{ destruct (call _ _ _ _ _) as [l2| | |] eqn:E; cbn [bind] in H; try discriminate H.
            apply Ok_inj in H. subst. cbn [lp_reads]. apply call_same in E as (_ & _ & _ & ->). now exists []. }
        all: destruct (panic_check _ _ _) as [s die]; destruct die;
          [apply Ok_inj in H; subst; now exists []|];
          destruct (call _ _ _ _ _) as [l2| | |] eqn:E; cbn [bind] in H; try discriminate H;
          apply read_device_grows in H as [more H]; apply call_same in E as (_ & _ & _ & E);
          cbn [lp_reads] in E; rewrite E in H; now exists more. }
      destruct G as [more G]. apply (Hs i r). rewrite G. apply in_app_iff. right. now left. }
    cbn [read_device] in H.
    destruct (nth_error _ _) as [dv|]; [|discriminate H].
    destruct (device_read_event _ _ _) as [[de ret]| | |] eqn:Er; cbn [bind] in H; try discriminate H.
    destruct ret; cbn [negb] in H.
    2:{ apply Ok_inj in H. subst. eapply pinv_read; eauto using not_returned. }
    destruct (de_type de) eqn:Ety.
    6:{ destruct (call _ _ _ _ _) as [l2| | |] eqn:E; cbn [bind] in H; try discriminate H.
        apply Ok_inj in H. subst. apply call_same in E as (A & B & C & D). cbn [lp_de lp_panic lp_dead lp_reads] in *.
        rewrite A, B, C, D. eapply pinv_read; eauto using dev_removed_none. }
    all: destruct (panic_check (lp_panic _) _ _) as [s die] eqn:Ep; cbn [lp_panic lp_d lp_timeout lp_de lp_dead lp_reads lp_calls] in *;
      match type of H with context [mkL ?d ?t ?e ?s0 ?dd ?rr ?cc] =>
        assert (P' : pinv (mkL d t e s0 dd rr cc)) by (eapply pinv_check; eauto) end;
      destruct die; [apply Ok_inj in H; now subst|];
      destruct (call _ _ _ _ _) as [l2| | |] eqn:E; cbn [bind] in H; try discriminate H;
      apply call_same in E as (A & B & C & D);
      apply IH in H; auto;
      [rewrite C; cbn [lp_dead]; rewrite Hd; reflexivity|eapply pinv_ext; eauto].
Qed.

Lemma read_devices_grows fuel wr reads is : forall ts l l', read_devices fuel wr reads is ts l = Ok l' ->
  exists more, lp_reads l' = more ++ lp_reads l.
Proof.
  induction is as [|i r IH]; cbn [read_devices]; intros ts l l' H.
  - apply Ok_inj in H. subst. now exists [].
  - destruct (lp_dead l); [apply Ok_inj in H; subst; now exists []|].
    destruct (read_device _ _ _ _ _ _) as [l1| | |] eqn:E; cbn [bind] in H; try discriminate H.
    apply read_device_grows in E as [m1 E]. apply IH in H as [m2 H]. exists (m2 ++ m1).
    rewrite H, E. apply app_assoc.
Qed.
Lemma sane_prefix l l' more : lp_reads l' = more ++ lp_reads l -> sane l' -> sane l.
Proof. intros E H i r Hi. apply (H i r). rewrite E. apply in_app_iff. auto. Qed.

Lemma read_devices_pinv fuel wr reads is : forall ts l l', read_devices fuel wr reads is ts l = Ok l' ->
  sane l' -> pinv l -> pinv l'.
Proof.
  induction is as [|i r IH]; cbn [read_devices]; intros ts l l' H Hs P.
  - apply Ok_inj in H. now subst.
  - destruct (lp_dead l) eqn:Ed; [apply Ok_inj in H; now subst|].
    destruct (read_device _ _ _ _ _ _) as [l1| | |] eqn:E; cbn [bind] in H; try discriminate H.
    eapply IH; eauto. eapply read_device_pinv; eauto.
    destruct (read_devices_grows _ _ _ _ _ _ _ H) as [m Hm]. eapply sane_prefix; eauto.
Qed.

Definition client (x : nat * imsg * list str * (nat -> bool)) : event :=
  let '(con, m, texts, grabs) := x in EvClient con m texts grabs.
Lemma round_cases fuel wr r l l' : loop_round fuel wr r l = Ok l' ->
  l' = l /\ lp_dead l = true \/
  lp_dead l = false /\ exists l1 l2,
    (if ((0 <? lp_timeout l) && (lp_timeout l <=? r_stop r - r_start r))%Z
     then call fuel wr EvTimeout (r_stop r) l
     else Ok (mkL (lp_d l) (lp_timeout l - (r_stop r - r_start r)) (lp_de l) (lp_panic l) (lp_dead l) (lp_reads l) (lp_calls l))) = Ok l1 /\
    read_devices fuel wr (r_reads r) (seq 0 (length (d_devs (lp_d l1)))) (r_stop r) l1 = Ok l2 /\
    (lp_dead l2 = true /\ l' = l2 \/
     lp_dead l2 = false /\ exists l3 l4,
       calls fuel wr (map client (r_clients r)) (r_stop r) l2 = Ok l3 /\
       add_devices fuel wr (r_added r) (r_stop r) l3 = Ok l4 /\
       l' = mkL (set_d_devs (filter dv_open (d_devs (lp_d l4))) (lp_d l4)) (lp_timeout l4) (lp_de l4) (lp_panic l4)
                (lp_dead l4) (lp_reads l4) (lp_calls l4)).
Proof.
  unfold loop_round. destruct (lp_dead l) eqn:Ed.
  - intros H. apply Ok_inj in H. auto.
  - intros H. right. split; [reflexivity|].
    match type of H with bind ?x _ = _ => destruct x as [l1| | |] eqn:E1 end; cbn [bind] in H; try discriminate H.
    destruct (read_devices _ _ _ _ _ _) as [l2| | |] eqn:E2; cbn [bind] in H; try discriminate H.
    exists l1, l2. split; [reflexivity|]. split; [exact E2|].
    destruct (lp_dead l2) eqn:Ed2; [apply Ok_inj in H; auto|]. right. split; [reflexivity|].
    destruct (calls _ _ _ _ _) as [l3| | |] eqn:E3; cbn [bind] in H; try discriminate H.
    destruct (add_devices _ _ _ _ _) as [l4| | |] eqn:E4; cbn [bind] in H; try discriminate H.
    apply Ok_inj in H. exists l3, l4. auto.
Qed.

Lemma round_grows fuel wr r l l' : loop_round fuel wr r l = Ok l' -> exists more, lp_reads l' = more ++ lp_reads l.
Proof.
  intros H. apply round_cases in H as [[-> _]|(_ & l1 & l2 & E1 & E2 & H)]; [now exists []|].
  assert (R1 : lp_reads l1 = lp_reads l).
  { destruct (andb _ _); [apply call_same in E1; tauto|apply Ok_inj in E1; now subst]. }
  apply read_devices_grows in E2 as [more E2]. exists more. rewrite <- R1, <- E2.
  destruct H as [[_ ->]|(_ & l3 & l4 & E3 & E4 & ->)]; [reflexivity|]. cbn [lp_reads].
  apply calls_same in E3. apply add_same in E4. intuition congruence.
Qed.

Lemma round_pinv fuel wr r l l' : loop_round fuel wr r l = Ok l' -> sane l' -> pinv l -> pinv l'.
Proof.
  intros H Hs P. apply round_cases in H as [[-> _]|(_ & l1 & l2 & E1 & E2 & H)]; [exact P|].
  assert (P1 : pinv l1).
  { destruct (andb _ _); [apply call_same in E1 as (A & B & C & D); eapply pinv_ext; eauto|].
    apply Ok_inj in E1. subst l1. now apply (pinv_ext l). }
  assert (P2 : sane l2 -> pinv l2) by (intros ?; eapply read_devices_pinv; eauto).
  destruct H as [[_ ->]|(_ & l3 & l4 & E3 & E4 & ->)]; [auto|].
  apply calls_same in E3 as (A & B & C & D). apply add_same in E4 as (A' & B' & C' & D').
  eapply pinv_ext; cbn [lp_de lp_panic lp_dead lp_reads]; [| | | |apply P2]; try congruence.
  intros i x Hx. apply (Hs i x). cbn [lp_reads]. congruence.
Qed.

Lemma start_fields fuel wr texts devs grabs ts l : start fuel wr texts devs grabs ts = Ok l ->
  lp_de l = zero_de /\ lp_panic l = mkPanic 0 0 0 /\ lp_dead l = false /\ lp_reads l = [].
Proof.
  unfold start. intros H. destruct (reload _ _ _) as [d| | |]; cbn [bind] in H; try discriminate H.
  destruct (calls _ _ _ _ _) as [l1| | |] eqn:E; cbn [bind] in H; try discriminate H.
  apply Ok_inj in H. subst. cbn [lp_de lp_panic lp_dead lp_reads].
  apply calls_same in E. exact E.
Qed.

Lemma runs_pinv fuel wr l : runs fuel wr l -> sane l -> pinv l.
Proof.
  induction 1 as [texts devs grabs ts l Hf H|r l l' Hr IH Hf H]; intros Hs.
  - apply start_fields in H as (A & B & C & D).
    constructor; unfold reads_of; rewrite ?A, ?B, ?C, ?D; cbn [rev map].
    + intros c Hc. unfold pstate. cbn. destruct (c =? 28), (c =? 14); reflexivity.
    + intros c Hc E. cbn in E. subst c. discriminate Hc.
    + intros a b E Hb. destruct a, b; try discriminate E. easy.
    + reflexivity.
  - eapply round_pinv; eauto. apply IH. destruct (round_grows _ _ _ _ _ H) as [m Hm].
    eapply sane_prefix; eauto.
Qed.

(* ---- the handler, event by event --------------------------------------------- *)
(* a relation that every effect of the daemon keeps *)
Section Keeps.
  Variable R : dstate -> dstate -> Prop.
  Hypothesis R_refl : forall d, R d d.
  Hypothesis R_trans : forall a b c, R a b -> R b c -> R a c.
  Hypothesis R_emit : forall v d, match v with VKey _ _ => False | _ => True end -> R d (vemit v d).
  Hypothesis R_key : forall c s d, R d (dsend_key c s d).
  Hypothesis R_nw : forall n d, R d (set_d_nw n d).
  Hypothesis R_lst : forall n d, R d (set_d_lst n d).
  Hypothesis R_clock : forall n d, R d (set_d_clock n d).
  Hypothesis R_store : forall p k d, R d (store p k d).
  Lemma write_keeps wr con text d : R d (fst (write_msg wr con text d)).
  Proof using R_trans R_emit R_nw.
    unfold write_msg. cbn [fst]. eapply R_trans; [|apply R_nw]; apply R_emit; exact Logic.I.
  Qed.
  Lemma notify_keeps wr text ls : forall keep d, R d (notify wr text ls keep d).
  Proof using R_trans R_emit R_nw R_lst.
    induction ls as [|c r IH]; cbn [notify]; intros keep d; [apply R_lst|].
    pose proof (write_keeps wr c text d) as W. destruct (write_msg wr c text d) as [d1 ok]. cbn [fst] in W.
    destruct ok; [eapply R_trans; [exact W|apply IH]|].
    eapply R_trans; [exact W|]. eapply R_trans; [|apply IH]; apply R_emit; exact Logic.I.
  Qed.
  Lemma leds_keeps p ind devs : forall i d, R d (set_leds p ind devs i d).
  Proof using R_refl R_trans R_emit.
    induction devs as [|dv r IH]; cbn [set_leds]; intros i d; [apply R_refl|].
    eapply R_trans; [|apply IH]. destruct (dv_data dv) as [q|]; [|apply R_refl].
    destruct (kptr_eqb q p); [apply R_emit; exact Logic.I|apply R_refl].
  Qed.
  Lemma layer_keeps wr p c i on ind d d' : on_layer_change wr p c i on ind d = Ok d' -> R d d'.
  Proof using R_refl R_trans R_emit R_nw R_lst.
    unfold on_layer_change. intros H.
    assert (K : R d (if c_indicator c then set_leds p ind (d_devs d) 0 d else d))
      by (destruct (c_indicator c); [apply leds_keeps|apply R_refl]).
    set (d1 := if c_indicator c then set_leds p ind (d_devs d) 0 d else d) in *. clearbody d1.
    destruct (d_lst d1) as [|x l]; [apply Ok_inj in H; now subst|].
    destruct (buf_text _ _); cbn [bind] in H; try discriminate H. apply Ok_inj in H. subst.
    eapply R_trans; [exact K|apply notify_keeps].
  Qed.
  Lemma deliver_keeps wr p c os : forall d d', deliver_all wr p c os d = Ok d' -> R d d'.
  Proof using R_refl R_trans R_emit R_nw R_lst R_key.
    induction os as [|o r IH]; cbn [deliver_all]; intros d d' H; [apply Ok_inj in H; subst; apply R_refl|].
    destruct (deliver wr p c d o) as [d1| | |] eqn:E; cbn [bind] in H; try discriminate H.
    apply IH in H. eapply R_trans; [|exact H]. unfold deliver in E. destruct o.
    - apply Ok_inj in E. subst. apply R_key.
    - eapply layer_keeps; eauto.
    - apply Ok_inj in E. subst. apply R_emit; exact Logic.I.
    - apply Ok_inj in E. subst. apply R_emit; exact Logic.I.
  Qed.
  Lemma run_keeps fuel wr p ev d d' t : run_kbd fuel wr p ev d = Ok (d', t) -> R d d'.
  Proof using R_refl R_trans R_emit R_nw R_lst R_key R_clock R_store.
    unfold run_kbd. intros H. destruct (deref d p) as [k| | |]; cbn [bind] in H; try discriminate H.
    destruct (kbd_process_events _ _ _) as [[k1 t1]| | |]; cbn [bind] in H; try discriminate H.
    destruct (deliver_all _ _ _ _ _) as [d1| | |] eqn:E; cbn [bind] in H; try discriminate H.
    apply Ok_inj in H. injection H as <- _. apply deliver_keeps in E.
    eapply R_trans; [apply R_clock|]. eapply R_trans; [exact E|apply R_store].
  Qed.
  Lemma send_layers_keeps wr con k is : forall d d' ok, send_layers wr con k is d = (d', ok) -> R d d'.
  Proof using R_refl R_trans R_emit R_nw.
    induction is as [|i r IH]; cbn [send_layers]; intros d d' ok H; [injection H as <- _; apply R_refl|].
    destruct (andb _ _); [|eauto].
    pose proof (write_keeps wr con (43 :: lname (k_cfg k) i ++ [10]) d) as W.
    destruct (write_msg wr con _ d) as [d1 ok1]. cbn [fst] in W.
    destruct ok1; [eapply R_trans; eauto|injection H as <- _; exact W].
  Qed.
  Lemma listener_keeps wr con d d' : add_listener wr con d = Ok d' -> R d d'.
  Proof using R_refl R_trans R_emit R_nw R_lst.
    unfold add_listener. intros H. destruct (Nat.eqb _ _).
    { apply Ok_inj in H. subst. eapply R_trans; [|apply R_emit; exact Logic.I]; apply R_emit; exact Logic.I. }
    destruct (d_active d) as [p|]; [|apply Ok_inj in H; subst; apply R_lst].
    destruct (deref d p) as [k| | |]; cbn [bind] in H; try discriminate H.
    pose proof (write_keeps wr con (47 :: lname (k_cfg k) (current_layout k) ++ [10]) d) as W.
    destruct (write_msg wr con _ d) as [d1 ok1]. cbn [fst] in W.
    destruct (send_layers _ _ _ _ _) as [d2 ok2] eqn:E. apply send_layers_keeps in E.
    apply Ok_inj in H. subst. eapply R_trans; [exact W|]. eapply R_trans; [exact E|].
    destruct ok2; [apply R_lst|apply R_emit; exact Logic.I].
  Qed.
End Keeps.

Lemma scroll_shape s x y s' vs : scroll_move s x y = Ok (s', vs) ->
  (s_sens s' = s_sens s /\ s_active s' = s_active s) /\ Forall (fun v => match v with VScroll _ _ => True | _ => False end) vs.
Proof.
  unfold scroll_move. destruct (_ =? 0)%Z; [intros H; injection H as <- <-; repeat constructor|].
  destruct (andb _ _); [|discriminate]. intros H. apply Ok_inj in H. apply pair_equal_spec in H as [<- <-].
  repeat constructor.
Qed.
(* Relations kept by every effect of the handler; calls of the engine, motion in
   scroll mode and new listeners as a whole. *)
Section Handler.
  Variables (fuel : nat) (wr : nat -> bool) (R : dstate -> dstate -> Prop) (L : nat -> Prop) (B Q W : Prop) (Ad : nat -> Prop).
  Hypothesis R_refl : forall d, R d d.
  Hypothesis R_trans : forall a b c, R a b -> R b c -> R a c.
  Hypothesis R_emit : forall v d, match v with VKey _ _ | VMsg _ _ _ | VLed _ _ _ => False | _ => True end -> R d (vemit v d).
  Hypothesis R_led : forall i l v d, W -> R d (vemit (VLed i l v) d).
  Hypothesis R_key : forall c s d, R d (dsend_key c s d).
  Hypothesis R_run : forall p ev d d' t, run_kbd fuel wr p ev d = Ok (d', t) -> R d d'.
  Hypothesis R_motion : forall p k x y d, deref d p = Ok k ->
    (exists dx dy vs, scroll_move (k_scroll k) dx dy = Ok (mkScroll x y (s_sens (k_scroll k)) (s_active (k_scroll k)), vs)) ->
    R d (store p (set_k_scroll (mkScroll x y (s_sens (k_scroll k)) (s_active (k_scroll k))) k) d).
  Hypothesis R_active : forall p d, (exists i dv, nth_error (d_devs d) i = Some dv /\ dv_data dv = Some p) -> R d (set_d_active (Some p) d).
  Hypothesis R_tap : forall c d, R d (tap c d).
  Hypothesis R_shift : forall c d, R d (vemit (VKey K_LEFTSHIFT false) (tap c (vemit (VKey K_LEFTSHIFT true) d))).
  Hypothesis R_listen : forall con d d', L con -> add_listener wr con d = Ok d' -> R d d'.
  Hypothesis R_bind : forall exp d ks ok, B -> eval_all (d_ents d) exp = Ok (ks, ok) -> R d (set_d_ents ks d).
  Hypothesis R_reload : forall texts grabs d d', Q -> reload texts grabs d = Ok d' -> R d d'.
  Hypothesis R_times : forall l t d, R d (set_d_times l t d).
  Hypothesis R_add : forall i dv grab d, Ad i -> nth_error (d_devs d) i = Some dv ->
    R d (set_d_devs (upd i (manage_device d grab dv) (d_devs d)) d).
  Lemma keypress_rel p c ts d d' t : process_keypress fuel wr p c ts d = Ok (d', t) -> R d d'.
  Proof using R_refl R_trans R_run.
    unfold process_keypress. intros H.
    destruct (run_kbd _ _ _ _ _) as [[d1 t1]| | |] eqn:E; cbn [bind] in H; try discriminate H.
    apply R_run in E, H. eauto.
  Qed.
  Lemma keypresses_rel p c ts n : forall tmo d d' t, keypresses fuel wr p c ts n tmo d = Ok (d', t) -> R d d'.
  Proof using R_refl R_trans R_run.
    induction n as [|n IH]; cbn [keypresses]; intros tmo d d' t H.
    - apply Ok_inj in H. injection H as <- _. apply R_refl.
    - destruct (process_keypress _ _ _ _ _ _) as [[d1 t1]| | |] eqn:E; cbn [bind] in H; try discriminate H.
      apply keypress_rel in E. apply IH in H. eauto.
  Qed.
  Lemma device_rel i de ts d d' r : (de_type de = DevLed -> W) -> device_event fuel wr i de ts d = Ok (d', r) -> R d d'.
  Proof using R_refl R_trans R_emit R_led R_run R_motion R_active.
    unfold device_event. intros Hw H. destruct (nth_error (d_devs d) i) as [dv|] eqn:En; [|discriminate H].
    destruct (dv_data dv) as [p|] eqn:Ed.
    - assert (A : R d (set_d_active (Some p) d)) by (apply R_active; eauto).
      eapply R_trans; [exact A|]. set (d1 := set_d_active (Some p) d) in *. clearbody d1.
      destruct (de_type de).
      + destruct (run_kbd _ _ _ _ _) as [[d2 t1]| | |] eqn:E; cbn [bind] in H; try discriminate H.
        apply Ok_inj in H. injection H as <- _. eapply R_run; eauto.
      + apply Ok_inj in H. injection H as <- _. apply R_refl.
      + destruct (deref d1 p) as [k| | |] eqn:Ek; cbn [bind] in H; try discriminate H.
        destruct (s_active (k_scroll k)).
        * destruct (scroll_move (k_scroll k) (de_x de) (de_y de)) as [[s vs]| | |] eqn:Es; cbn [bind] in H; try discriminate H.
          pose proof (scroll_shape _ _ _ _ _ Es) as [Hs Hv]. apply Ok_inj in H. injection H as <- _.
          assert (A1 : R d1 (store p (set_k_scroll s k) d1)).
          { destruct s as [x y n b]. cbn [s_sens s_active] in Hs. destruct Hs as [-> ->]. apply R_motion; [exact Ek|]. eauto. }
          eapply R_trans; [exact A1|]. clear -Hv R_refl R_trans R_emit. revert Hv. generalize (store p (set_k_scroll s k) d1).
          induction vs as [|v vs IH]; cbn [fold_left]; intros e Hv; [apply R_refl|].
          inversion Hv as [|? ? H1 H2]; subst. eapply R_trans; [|apply IH, H2]. apply R_emit. destruct v; tauto.
        * apply Ok_inj in H. injection H as <- _. apply R_emit; exact Logic.I.
      + apply Ok_inj in H. injection H as <- _. apply R_emit; exact Logic.I.
      + match type of H with bind ?x _ = _ => destruct x as [[d2 t2]| | |] eqn:E1 end; cbn [bind] in H; try discriminate H.
        match type of H with bind ?x _ = _ => destruct x as [[d3 t3]| | |] eqn:E2 end; cbn [bind] in H; try discriminate H.
        apply Ok_inj in H. injection H as <- _. apply (R_trans _ d2).
        * destruct (de_x de =? 0)%Z; [apply Ok_inj in E1; injection E1 as <- _; apply R_refl|eapply keypresses_rel; eauto].
        * destruct (de_y de =? 0)%Z; [apply Ok_inj in E2; injection E2 as <- _; apply R_refl|eapply keypresses_rel; eauto].
      + apply Ok_inj in H. injection H as <- _. apply R_refl.
    - destruct (negb (dv_virtual dv) && _).
      + destruct (d_active d) as [p|]; [|apply Ok_inj in H; injection H as <- _; apply R_refl].
        destruct (de_type de); try (apply Ok_inj in H; injection H as <- _; apply R_refl);
        destruct (process_keypress _ _ _ _ _ _) as [[d2 t1]| | |] eqn:E; cbn [bind] in H; try discriminate H;
        apply Ok_inj in H; injection H as <- _; eapply keypress_rel; eauto.
      + destruct (dv_virtual dv); [|apply Ok_inj in H; injection H as <- _; apply R_refl].
        destruct (de_type de); try (apply Ok_inj in H; injection H as <- _; apply R_refl).
        specialize (Hw eq_refl). apply Ok_inj in H. injection H as <- _. clear En.
        generalize (combine (seq 0 (length (d_devs d))) (d_devs d)) as l. intros l. revert d.
        induction l as [|[j x] l IH]; cbn [fold_left]; intros d; [apply R_refl|].
        eapply R_trans; [|apply IH]. destruct (dv_data x); [now apply R_led|apply R_refl].
  Qed.
  Lemma taps_rel l : forall d, R d (fold_left (fun d c => tap c d) l d).
  Proof using R_refl R_trans R_tap.
    induction l as [|c l IH]; cbn [fold_left]; intros d; [apply R_refl|]. eapply R_trans; [apply R_tap|apply IH].
  Qed.
  Lemma input_char_rel csz cp d d' ok : input_char csz cp d = (d', ok) -> R d d'.
  Proof using R_refl R_trans R_tap R_shift.
    unfold input_char. intros H.
    destruct (if Nat.eqb csz 1 then _ else None) as [x|] eqn:E.
    - injection H as <- _. destruct (Nat.eqb csz 1); [|discriminate E].
      destruct (parse_key_sequence _) as [[code mods]|].
      + injection E as <-. destruct (negb _); [apply R_shift|apply R_tap].
      + repeat (match type of E with (if ?b then _ else _) = _ => destruct b end; [injection E as <-; apply R_tap|]).
        discriminate E.
    - destruct (unicode_lookup_index cp); apply pair_equal_spec in H as [<- _]; [apply taps_rel|apply R_refl].
  Qed.
  Lemma input_rel f : forall buf timeout d d' ok, input f buf timeout d = Ok (d', ok) -> R d d'.
  Proof using R_refl R_trans R_tap R_shift R_emit.
    induction f as [|f IH]; cbn [input]; intros buf timeout d d' ok H; [discriminate H|].
    destruct (utf8_read_char buf) as [[csz cp]| | |]; cbn [bind] in H; try discriminate H.
    destruct csz as [|csz]; [apply Ok_inj in H; injection H as <- _; apply R_refl|].
    destruct (input_char (S csz) cp d) as [d1 ok1] eqn:E. apply input_char_rel in E.
    destruct ok1; [|apply Ok_inj in H; injection H as <- _; exact E].
    apply IH in H. eapply R_trans; [exact E|]. eapply R_trans; [|exact H].
    destruct (timeout =? 0); [apply R_refl|apply R_emit; exact Logic.I].
  Qed.
  Lemma play_rel os : forall d, R d (play os d).
  Proof using R_refl R_trans R_emit R_key.
    induction os as [|o r IH]; cbn [play]; intros d; [apply R_refl|].
    destruct o; try apply IH; (eapply R_trans; [|apply IH]); [apply R_key|apply R_emit; exact Logic.I].
  Qed.
  Definition permitted (con : nat) (m : imsg) : Prop :=
    match i_type m with IListen => L con | IBind => B | IReload => Q | _ => True end.
  Lemma client_rel con m texts grabs d d' : permitted con m -> handle_client wr con m texts grabs d = Ok d' -> R d d'.
  Proof using R_refl R_trans R_emit R_key R_tap R_shift R_listen R_bind R_reload.
    unfold handle_client, permitted. intros Hl H.
    destruct (4096 <=? _); [apply Ok_inj in H; subst; apply R_emit; exact Logic.I|].
    destruct (1000000 <? _); [apply Ok_inj in H; subst; apply R_emit; exact Logic.I|].
    destruct (i_type m).
    - destruct (eval_all _ _) as [[ks ok]| | |] eqn:E; cbn [bind] in H; try discriminate H.
      apply Ok_inj in H. subst. eapply R_trans; [eapply R_bind; eauto|apply R_emit; exact Logic.I].
    - destruct (input _ _ _ _) as [[d1 ok]| | |] eqn:E; cbn [bind] in H; try discriminate H.
      apply Ok_inj in H. subst. apply input_rel in E. eapply R_trans; [exact E|apply R_emit; exact Logic.I].
    - destruct (macro_parse _) as [[mac|]| | |]; cbn [bind] in H; try discriminate H; apply Ok_inj in H; subst.
      + eapply R_trans; [apply play_rel|apply R_emit; exact Logic.I].
      + apply R_emit; exact Logic.I.
    - destruct (reload _ _ _) as [d1| | |] eqn:E; cbn [bind] in H; try discriminate H.
      apply Ok_inj in H. subst. eapply R_trans; [eapply R_reload; eauto|apply R_emit; exact Logic.I].
    - eapply R_listen; eauto.
    - apply Ok_inj in H. subst. apply R_emit; exact Logic.I.
  Qed.
  Lemma handler_rel_all ev ts d d' t :
    match ev with
    | EvClient con m _ _ => permitted con m
    | EvDev _ de => de_type de = DevLed -> W
    | EvAdd i _ => Ad i
    | _ => True
    end ->
    event_handler fuel wr ev ts d = Ok (d', t) -> R d d'.
  Proof using All.
    unfold event_handler. intros Hl H.
    assert (A0 : R d (set_d_times ts (Z.max 0 (d_timeout d - (ts - d_last d))) d)) by apply R_times.
    eapply R_trans; [exact A0|].
    set (t0 := Z.max 0 (d_timeout d - (ts - d_last d))) in *.
    set (d1 := set_d_times ts t0 d) in *. clearbody d1.
    destruct ev as [|i de|i grab|i|con m texts grabs].
    - destruct (d_active d1) as [p|]; [|apply Ok_inj in H; injection H as <- _; apply R_refl].
      destruct (run_kbd _ _ _ _ _) as [[d2 t2]| | |] eqn:E; cbn [bind] in H; try discriminate H.
      apply Ok_inj in H. injection H as <- _. apply R_run in E. eapply R_trans; [exact E|apply R_times].
    - destruct (device_event _ _ _ _ _ _) as [[d2 r]| | |] eqn:E; cbn [bind] in H; try discriminate H.
      apply Ok_inj in H. injection H as <- _. apply device_rel in E; [|exact Hl]. eapply R_trans; [exact E|apply R_times].
    - destruct (nth_error (d_devs d1) i) as [dv|] eqn:En; [|discriminate H]. cbn [bind] in H.
      apply Ok_inj in H. injection H as <- _. eapply R_trans; [eapply R_add; eauto|apply R_times].
    - cbn [bind] in H. apply Ok_inj in H. injection H as <- _. apply R_times.
    - destruct (handle_client _ _ _ _ _ _) as [d2| | |] eqn:E; cbn [bind] in H; try discriminate H.
      apply Ok_inj in H. injection H as <- _. apply client_rel in E; [|exact Hl]. eapply R_trans; [exact E|apply R_times].
  Qed.
End Handler.

(* LED events and new devices like any other effect *)
Section Handler2.
  Variables (fuel : nat) (wr : nat -> bool) (R : dstate -> dstate -> Prop) (L : nat -> Prop) (B Q : Prop).
  Hypothesis R_refl : forall d, R d d.
  Hypothesis R_trans : forall a b c, R a b -> R b c -> R a c.
  Hypothesis R_emit : forall v d, match v with VKey _ _ | VMsg _ _ _ => False | _ => True end -> R d (vemit v d).
  Hypothesis R_key : forall c s d, R d (dsend_key c s d).
  Hypothesis R_run : forall p ev d d' t, run_kbd fuel wr p ev d = Ok (d', t) -> R d d'.
  Hypothesis R_motion : forall p k x y d, deref d p = Ok k ->
    R d (store p (set_k_scroll (mkScroll x y (s_sens (k_scroll k)) (s_active (k_scroll k))) k) d).
  Hypothesis R_active : forall p d, (exists i dv, nth_error (d_devs d) i = Some dv /\ dv_data dv = Some p) -> R d (set_d_active (Some p) d).
  Hypothesis R_tap : forall c d, R d (tap c d).
  Hypothesis R_shift : forall c d, R d (vemit (VKey K_LEFTSHIFT false) (tap c (vemit (VKey K_LEFTSHIFT true) d))).
  Hypothesis R_listen : forall con d d', L con -> add_listener wr con d = Ok d' -> R d d'.
  Hypothesis R_bind : forall exp d ks ok, B -> eval_all (d_ents d) exp = Ok (ks, ok) -> R d (set_d_ents ks d).
  Hypothesis R_reload : forall texts grabs d d', Q -> reload texts grabs d = Ok d' -> R d d'.
  Hypothesis R_times : forall l t d, R d (set_d_times l t d).
  Hypothesis R_add : forall i dv grab d, nth_error (d_devs d) i = Some dv ->
    R d (set_d_devs (upd i (manage_device d grab dv) (d_devs d)) d).
  Lemma handler_rel ev ts d d' t :
    match ev with EvClient con m _ _ => permitted L B Q con m | _ => True end ->
    event_handler fuel wr ev ts d = Ok (d', t) -> R d d'.
  Proof using All.
    intros H. apply (handler_rel_all fuel wr R L B Q True (fun _ => True)); auto.
    - intros v e Hv. apply R_emit. destruct v; auto.
    - destruct ev; auto.
  Qed.
End Handler2.

Section KeepsAll.
  Variable R : dstate -> dstate -> Prop.
  Hypothesis R_refl : forall d, R d d.
  Hypothesis R_trans : forall a b c, R a b -> R b c -> R a c.
  Hypothesis R_emit : forall v d, match v with VKey _ _ => False | _ => True end -> R d (vemit v d).
  Hypothesis R_key : forall c s d, R d (dsend_key c s d).
  Hypothesis R_nw : forall n d, R d (set_d_nw n d).
  Hypothesis R_lst : forall n d, R d (set_d_lst n d).
  Hypothesis R_clock : forall n d, R d (set_d_clock n d).
  Hypothesis R_store : forall p k d, R d (store p k d).
  Hypothesis R_active : forall p d, (exists i dv, nth_error (d_devs d) i = Some dv /\ dv_data dv = Some p) -> R d (set_d_active (Some p) d).
  Lemma device_keeps fuel wr i de ts d d' r : device_event fuel wr i de ts d = Ok (d', r) -> R d d'.
  Proof using All.
    apply (device_rel fuel wr R True); auto.
    - intros [] e He; try destruct He; apply R_emit; exact Logic.I.
    - intros. eapply run_keeps; eauto.
  Qed.
  Hypothesis R_tap : forall c d, R d (tap c d).
  Hypothesis R_shift : forall c d, R d (vemit (VKey K_LEFTSHIFT false) (tap c (vemit (VKey K_LEFTSHIFT true) d))).
  Hypothesis R_bind : forall exp d ks ok, eval_all (d_ents d) exp = Ok (ks, ok) -> R d (set_d_ents ks d).
  Hypothesis R_reload : forall texts grabs d d', reload texts grabs d = Ok d' -> R d d'.
  Hypothesis R_times : forall l t d, R d (set_d_times l t d).
  Hypothesis R_add : forall i dv grab d, nth_error (d_devs d) i = Some dv ->
    R d (set_d_devs (upd i (manage_device d grab dv) (d_devs d)) d).
  Lemma handler_keeps fuel wr ev ts d d' t : event_handler fuel wr ev ts d = Ok (d', t) -> R d d'.
  Proof using All.
    apply (handler_rel fuel wr R (fun _ => True) True True); auto.
    - intros [] e He; try destruct He; apply R_emit; exact Logic.I.
    - intros. eapply run_keeps; eauto.
    - intros con e e' _. apply listener_keeps; auto.
    - intros e x ks ok _. apply R_bind.
    - intros x g e e' _. apply R_reload.
    - destruct ev as [| | | |con m x g]; auto. unfold permitted. destruct (i_type m); auto.
  Qed.
End KeepsAll.

(* ---- C47 ------------------------------------------------------------------------ *)
Definition is_scroll (c : N) : bool :=
  (c =? K_SCROLL_DOWN) || (c =? K_SCROLL_UP) || (c =? K_SCROLL_RIGHT) || (c =? K_SCROLL_LEFT).
Definition hold_ok (d : dstate) : Prop :=
  forall c, vheld (d_out d) c = true -> c < 256 /\ d_ks d c = true /\ is_scroll c = false.
Definition HR (d d' : dstate) : Prop := hold_ok d -> hold_ok d'.

Lemma hold_emit v d : match v with VKey _ _ => False | _ => True end -> HR d (vemit v d).
Proof. intros Hv H c. unfold vemit. destruct v; try contradiction; cbn [d_out d_ks set_d_out vheld]; apply H. Qed.
Lemma hold_key c s d : HR d (dsend_key c s d).
Proof.
  intros H x Hx. unfold dsend_key in *. set (k := c mod 256) in *.
  assert (Hk : k < 256) by (apply N.mod_lt; discriminate). clearbody k.
  assert (S0 : is_scroll k = true -> vheld (d_out d) x = true -> d_ks (set_d_ks (fupd (d_ks d) k s) d) x = true /\ x <> k).
  { intros Hs Hv. destruct (H x Hv) as (A & B & C). cbn [d_ks set_d_ks]. unfold fupd.
    destruct (N.eqb_spec x k) as [->|Nk]; [congruence|]. auto. }
  unfold is_scroll in S0.
  destruct (N.eqb_spec k K_SCROLL_DOWN) as [E|N1].
  { assert (V : vheld (d_out d) x = true) by (destruct s; exact Hx).
    destruct (H x V) as (A & _ & C). destruct (S0 eq_refl V) as [B _].
    split; [exact A|]. split; [destruct s; exact B|exact C]. }
  destruct (N.eqb_spec k K_SCROLL_UP) as [E|N2].
  { assert (V : vheld (d_out d) x = true) by (destruct s; exact Hx).
    destruct (H x V) as (A & _ & C). destruct (S0 eq_refl V) as [B _].
    split; [exact A|]. split; [destruct s; exact B|exact C]. }
  destruct (N.eqb_spec k K_SCROLL_RIGHT) as [E|N3].
  { assert (V : vheld (d_out d) x = true) by (destruct s; exact Hx).
    destruct (H x V) as (A & _ & C). destruct (S0 eq_refl V) as [B _].
    split; [exact A|]. split; [destruct s; exact B|exact C]. }
  destruct (N.eqb_spec k K_SCROLL_LEFT) as [E|N4].
  { assert (V : vheld (d_out d) x = true) by (destruct s; exact Hx).
    destruct (H x V) as (A & _ & C). destruct (S0 eq_refl V) as [B _].
    split; [exact A|]. split; [destruct s; exact B|exact C]. }
  unfold vemit in *. cbn [d_out d_ks set_d_out set_d_ks vheld] in *. unfold fupd.
  destruct (N.eqb_spec k x) as [<-|Nk].
  - rewrite N.eqb_refl. subst s. repeat split; auto. unfold is_scroll.
    apply N.eqb_neq in N1, N2, N3, N4. now rewrite N1, N2, N3, N4.
  - destruct (H x Hx) as (A & B & C). destruct (N.eqb_spec x k) as [->|_]; [now destruct Nk|]. auto.
Qed.
Lemma hold_same d d' : d_out d' = d_out d -> d_ks d' = d_ks d -> HR d d'.
Proof. intros A B H c. rewrite A, B. apply H. Qed.
Lemma hold_tap c d : HR d (tap c d).
Proof.
  intros H x Hx. unfold tap, vemit in *. cbn [d_out d_ks set_d_out vheld] in *.
  destruct (c =? x); [discriminate Hx|]. auto.
Qed.
Lemma hold_shift c d : HR d (vemit (VKey K_LEFTSHIFT false) (tap c (vemit (VKey K_LEFTSHIFT true) d))).
Proof.
  intros H x Hx. unfold tap, vemit in *. cbn [d_out d_ks set_d_out vheld] in *.
  destruct (K_LEFTSHIFT =? x); [discriminate Hx|]. destruct (c =? x); [discriminate Hx|]. auto.
Qed.

(* releasing every key *)
Lemma clear_key_hold i d : HR d (clear_key d i).
Proof.
  intros H c Hc. unfold clear_key in *. destruct (d_ks d (N.of_nat i)); [|auto].
  unfold vemit in *. cbn [d_out d_ks set_d_out set_d_ks vheld] in *.
  destruct (N.eqb_spec (N.of_nat i) c) as [Ei|Nc]; [discriminate Hc|].
  unfold fupd. destruct (N.eqb_spec c (N.of_nat i)) as [Ei|_]; [now destruct Nc|]. auto.
Qed.
Lemma clear_keys_spec is : forall d d', fold_left clear_key is d = d' ->
  (forall i, In i is -> d_ks d' (N.of_nat i) = false) /\
  (forall c, d_ks d c = false -> d_ks d' c = false) /\
  HR d d' /\
  (exists rels, d_out d' = rels ++ d_out d /\ Forall (fun v => exists c, v = VKey c false /\ d_ks d c = true) rels).
Proof.
  induction is as [|i is IH]; cbn [fold_left]; intros d d' E.
  - subst. split; [intros ? []|]. split; [auto|]. split; [intros h; exact h|]. now exists [].
  - destruct (IH _ _ E) as (A & B & C & rels & D1 & D2).
    assert (K : forall c, d_ks d c = false -> d_ks (clear_key d i) c = false).
    { intros c Hc. unfold clear_key. destruct (d_ks d (N.of_nat i)); [|exact Hc].
      cbn [d_ks set_d_ks]. unfold fupd. destruct (c =? N.of_nat i); auto. }
    split.
    { intros j [<-|Hj]; [|auto]. apply B. unfold clear_key. destruct (d_ks d (N.of_nat i)) eqn:Ek; [|exact Ek].
      cbn [d_ks set_d_ks]. unfold fupd. now rewrite N.eqb_refl. }
    split; [intros; apply B, K; assumption|].
    split; [intros H; apply C; now apply clear_key_hold|].
    unfold clear_key in *. destruct (d_ks d (N.of_nat i)) eqn:Ek.
    + unfold vemit in *. cbn [d_out d_ks set_d_out set_d_ks] in *.
      exists (rels ++ [VKey (N.of_nat i) false]). rewrite D1, <- app_assoc. split; [reflexivity|].
      apply Forall_app. split; [|apply Forall_cons; [eauto|constructor]].
      eapply Forall_impl; [|exact D2]. intros v (c & -> & Hc). exists c. split; [reflexivity|].
      unfold fupd in Hc. destruct (c =? N.of_nat i) eqn:Ec; [discriminate Hc|exact Hc].
    + exists rels. auto.
Qed.
Lemma clear_vkbd_spec d : hold_ok d -> forall c, vheld (d_out (clear_vkbd d)) c = false.
Proof.
  intros H c. unfold clear_vkbd.
  destruct (clear_keys_spec (seq 0 256) d _ eq_refl) as (A & _ & C & _).
  specialize (C H). destruct (vheld (d_out (fold_left clear_key (seq 0 256) d)) c) eqn:E; [|reflexivity].
  destruct (C c E) as (L & K & _). specialize (A (N.to_nat c)). rewrite N2Nat.id in A.
  rewrite A in K; [discriminate K|]. apply in_seq. lia.
Qed.

Definition reload_base (texts : list str) (grabs : nat -> bool) (d : dstate) (ents : list kbd) : dstate :=
  let d1 := set_d_ents ents (set_d_gen (S (d_gen d)) d) in
  set_d_devs (manage_all d1 grabs 0 (d_devs d1)) d1.
Lemma reload_inv texts grabs d d' : reload texts grabs d = Ok d' -> exists ents,
  load_files texts (d_clock d) [] = Ok ents /\ d' = clear_vkbd (reload_base texts grabs d ents).
Proof.
  unfold reload. intros H. destruct (load_files _ _ _) as [ents| | |]; cbn [bind] in H; try discriminate H.
  apply Ok_inj in H. exists ents. split; [reflexivity|]. symmetry. exact H.
Qed.
Lemma reload_hold texts grabs d d' : reload texts grabs d = Ok d' -> HR d d'.
Proof.
  intros H Hd. apply reload_inv in H as (ents & _ & ->).
  destruct (clear_keys_spec (seq 0 256) (reload_base texts grabs d ents) _ eq_refl) as (_ & _ & C & _).
  apply C. intros c. apply Hd.
Qed.
Lemma reload_clears texts grabs d d' : reload texts grabs d = Ok d' -> hold_ok d -> forall c, vheld (d_out d') c = false.
Proof. intros H Hd. apply reload_inv in H as (ents & _ & ->). apply clear_vkbd_spec. exact Hd. Qed.

Lemma handler_hold fuel wr ev ts d d' t : event_handler fuel wr ev ts d = Ok (d', t) -> HR d d'.
Proof.
  apply handler_keeps; intros; try (apply hold_same; reflexivity).
  - intros h. auto.
  - now apply hold_emit.
  - apply hold_key.
  - apply hold_tap.
  - apply hold_shift.
  - eapply reload_hold; eauto.
Qed.

(* an invariant of the daemon lifted to the loop: [steps] from the daemon's
   changes by the loop itself *)
Section Loop.
  Variables (fuel : nat) (wr : nat -> bool) (P : dstate -> Prop) (fresh : device -> Prop).
  Hypothesis P_handler : forall ev ts d d' t, event_handler fuel wr ev ts d = Ok (d', t) -> P d -> P d'.
  Hypothesis P_open : forall i dv d, nth_error (d_devs d) i = Some dv -> P d ->
    P (set_d_devs (upd i (set_dv_open false dv) (d_devs d)) d).
  Hypothesis P_same : forall i dv d, nth_error (d_devs d) i = Some dv -> P d -> P (set_d_devs (upd i dv (d_devs d)) d).
  Hypothesis P_add : forall dv d, fresh dv -> P d -> P (set_d_devs (d_devs d ++ [dv]) d).
  Hypothesis P_drop : forall d, P d -> P (set_d_devs (filter dv_open (d_devs d)) d).
  (* the present state and every state in which the handler was called *)
  Definition seen (l : lstate) : Prop :=
    P (lp_d l) /\ forall d ev ts t, In (d, ev, ts, t) (lp_calls l) -> P d /\ exists d', event_handler fuel wr ev ts d = Ok (d', t).
  Lemma call_inv ev ts l l' : call fuel wr ev ts l = Ok l' -> seen l -> seen l'.
  Proof using P_handler.
    unfold call. intros H Hp. destruct (event_handler _ _ _ _ _) as [[d t]| | |] eqn:E; cbn [bind] in H; try discriminate H.
    apply Ok_inj in H. subst. destruct Hp as [Hp Hc]. split; cbn [lp_d lp_calls]; [eauto|].
    intros d0 ev0 ts0 t0 [[= <- <- <- <-]|Hi]; eauto.
  Qed.
  Lemma calls_inv evs : forall ts l l', calls fuel wr evs ts l = Ok l' -> seen l -> seen l'.
  Proof using P_handler.
    induction evs as [|e r IH]; cbn [calls]; intros ts l l' H Hp; [apply Ok_inj in H; now subst|].
    destruct (call _ _ _ _ _) as [l1| | |] eqn:E; cbn [bind] in H; try discriminate H.
    apply call_inv in E; eauto.
  Qed.
  Lemma add_inv devs : forall ts l l', add_devices fuel wr devs ts l = Ok l' -> Forall (fun x => fresh (fst x)) devs ->
    seen l -> seen l'.
  Proof using P_handler P_add.
    induction devs as [|[dv g] r IH]; cbn [add_devices]; intros ts l l' H Hf Hp; [apply Ok_inj in H; now subst|].
    destruct (Nat.ltb _ 64); [|discriminate H].
    destruct (call _ _ _ _ _) as [l1| | |] eqn:E; cbn [bind] in H; try discriminate H.
    apply call_inv in E; [|split; [apply P_add; [apply (Forall_inv Hf)|apply Hp]|exact (proj2 Hp)]].
    eapply IH; eauto. apply (Forall_inv_tail Hf).
  Qed.
  Lemma read_device_inv i rs : forall ts l l', read_device fuel wr i rs ts l = Ok l' -> seen l -> seen l'.
  Proof using P_handler P_open P_same.
    induction rs as [|r rs IH]; cbn [read_device]; intros ts l l' H Hp; [apply Ok_inj in H; now subst|].
    destruct (nth_error (d_devs (lp_d l)) i) as [dv|] eqn:En; [|discriminate H].
    destruct (device_read_event _ _ _) as [[de ret]| | |]; cbn [bind] in H; try discriminate H.
    assert (P1 : P (set_d_devs (upd i (match r with RError => set_dv_open false dv | _ => dv end) (d_devs (lp_d l))) (lp_d l)))
      by (destruct Hp; destruct r; auto).
    destruct ret; cbn [negb] in H; [|apply Ok_inj in H; subst; split; [exact P1|exact (proj2 Hp)]].
    destruct (de_type de).
    6:{ destruct (call _ _ _ _ _) as [l2| | |] eqn:E; cbn [bind] in H; try discriminate H.
        apply Ok_inj in H. subst. apply call_inv in E; [|split; [exact P1|exact (proj2 Hp)]].
        split; [|exact (proj2 E)]. destruct E as [E _]. cbn [lp_d].
        destruct (nth_error (d_devs (lp_d l2)) i) as [x|] eqn:Ex.
        - rewrite (nth_error_nth _ _ _ Ex). apply P_open; auto.
        - replace (upd i _ _) with (d_devs (lp_d l2)); [destruct (lp_d l2); exact E|].
          symmetry. generalize (set_dv_open false
            (nth i (d_devs (lp_d l2)) (match r with RError => set_dv_open false dv | _ => dv end))) as y.
          intros y. clear -Ex. revert i Ex. generalize (d_devs (lp_d l2)) as ds.
          induction ds as [|a ds IH]; intros [|i] Ex; try reflexivity; [discriminate Ex|].
          unfold upd in *. cbn in *. f_equal. now apply IH. }
    all: destruct (panic_check _ _ _) as [s die]; destruct die; [apply Ok_inj in H; subst; split; [exact P1|exact (proj2 Hp)]|];
      destruct (call _ _ _ _ _) as [l2| | |] eqn:E; cbn [bind] in H; try discriminate H;
      apply call_inv in E; [|split; [exact P1|exact (proj2 Hp)]]; eapply IH; eauto.
  Qed.
  Lemma read_devices_inv reads is : forall ts l l', read_devices fuel wr reads is ts l = Ok l' -> seen l -> seen l'.
  Proof using P_handler P_open P_same.
    induction is as [|i r IH]; cbn [read_devices]; intros ts l l' H Hp; [apply Ok_inj in H; now subst|].
    destruct (lp_dead l); [apply Ok_inj in H; now subst|].
    destruct (read_device _ _ _ _ _ _) as [l1| | |] eqn:E; cbn [bind] in H; try discriminate H.
    apply read_device_inv in E; eauto.
  Qed.
  Lemma round_inv r l l' : loop_round fuel wr r l = Ok l' -> Forall (fun x => fresh (fst x)) (r_added r) ->
    seen l -> seen l'.
  Proof using All.
    intros H Hf Hp. apply round_cases in H as [[-> _]|(_ & l1 & l2 & E1 & E2 & H)]; [exact Hp|].
    assert (P1 : seen l1).
    { destruct (andb _ _); [apply call_inv in E1; auto|apply Ok_inj in E1; subst; exact Hp]. }
    apply read_devices_inv in E2; [|exact P1].
    destruct H as [[_ ->]|(_ & l3 & l4 & E3 & E4 & ->)]; [exact E2|].
    apply calls_inv in E3; [|exact E2]. apply add_inv in E4; auto.
    split; [apply P_drop, E4|exact (proj2 E4)].
  Qed.
End Loop.

Lemma hold_devs v d : hold_ok d -> hold_ok (set_d_devs v d).
Proof. intros H c. apply H. Qed.
Lemma runs_hold fuel wr l : runs fuel wr l -> seen fuel wr hold_ok l.
Proof.
  induction 1 as [texts devs grabs ts l Hf H|r l l' Hr IH Hf H].
  - unfold start in H. destruct (reload _ _ _) as [d| | |] eqn:Er; cbn [bind] in H; try discriminate H.
    destruct (calls _ _ _ _ _) as [l1| | |] eqn:E; cbn [bind] in H; try discriminate H.
    apply Ok_inj in H. subst. cbn [lp_d].
    apply (calls_inv fuel wr hold_ok) in E; [exact E|intros; eapply handler_hold; eauto|].
    split; [|intros ? ? ? ? []]. cbn [lp_d]. apply hold_devs. eapply reload_hold; eauto. intros c Hc. discriminate Hc.
  - eapply (round_inv fuel wr hold_ok (fun _ => True)); eauto using hold_devs.
    + intros. eapply handler_hold; eauto.
    + apply Forall_forall. auto.
Qed.

(* ---- C51 ------------------------------------------------------------------------ *)
Record ptr_ok (d : dstate) : Prop := {
  po_dev : forall dv p, In dv (d_devs d) -> dv_data dv = Some p -> live d p;
  po_virtual : forall dv, In dv (d_devs d) -> dv_virtual dv = true -> dv_data dv = None;
  po_active : forall p, d_active d = Some p -> (0 < fst p < d_gen d)%nat \/ live d p;
  po_gen : d_gen d = 0%nat -> d_ents d = [] }.
Definition PR (d d' : dstate) : Prop := ptr_ok d -> ptr_ok d'.
Lemma ptr_same d d' : d_gen d' = d_gen d -> length (d_ents d') = length (d_ents d) -> d_active d' = d_active d ->
  d_devs d' = d_devs d -> PR d d'.
Proof.
  intros A B C D [H1 H2 H3 H4]. constructor; unfold live in *; rewrite ?A, ?B, ?C, ?D; auto.
  intros G. apply H4 in G. rewrite G in B. now destruct (d_ents d').
Qed.

Lemma best_bound cs id flags : forall i m rank r q, best_match cs id flags i m rank = (r, q) ->
  r = m \/ exists j, r = Some j /\ (i <= j < i + length cs)%nat.
Proof.
  induction cs as [|c cs IH]; cbn [best_match length]; intros i m rank r q H; [injection H as <- _; auto|].
  destruct (rank <? _); apply IH in H as [->|(j & -> & Hj)]; auto; right.
  - exists i. split; [reflexivity|lia].
  - exists j. split; [reflexivity|lia].
  - exists j. split; [reflexivity|lia].
Qed.
Lemma lookup_bound cs id flags i : lookup_config_ent cs id flags = Some i -> (i < length cs)%nat.
Proof.
  unfold lookup_config_ent. destruct (best_match cs id flags 0 None 0) as [m q] eqn:E.
  destruct (_ && _); [discriminate|]. intros ->.
  apply best_bound in E as [E|(j & E & Hj)]; [discriminate E|]. injection E as ->. lia.
Qed.
Lemma manage_live d grab dv p : dv_data (manage_device d grab dv) = Some p ->
  live d p \/ dv_virtual dv = true /\ dv_data dv = Some p.
Proof.
  unfold manage_device. destruct (dv_virtual dv); [auto|].
  destruct (lookup_config_ent _ _ _) as [i|] eqn:E; [|discriminate].
  apply lookup_bound in E. rewrite map_length in E.
  destruct (_ || _); [|discriminate]. cbn [dv_data set_dv_bound]. intros [= <-]. left. split; auto.
Qed.
Lemma manage_virtual d grab dv : dv_virtual (manage_device d grab dv) = dv_virtual dv /\
  (dv_virtual dv = true -> manage_device d grab dv = dv).
Proof.
  unfold manage_device. destruct (dv_virtual dv) eqn:E; [auto|].
  destruct (lookup_config_ent _ _ _); [destruct (_ || _)|]; cbn [dv_virtual set_dv_bound]; split; auto; discriminate.
Qed.
Lemma manage_all_in d grabs devs : forall i dv', In dv' (manage_all d grabs i devs) ->
  exists dv g, In dv devs /\ dv' = manage_device d g dv.
Proof.
  induction devs as [|dv r IH]; cbn [manage_all]; intros i dv' [].
  - subst. exists dv, (grabs i). cbn. auto.
  - destruct (IH _ _ H) as (x & g & A & B). exists x, g. cbn. auto.
Qed.
Lemma eval_length ks : forall exp ks' ok, eval_all ks exp = Ok (ks', ok) -> length ks' = length ks.
Proof.
  induction ks as [|k r IH]; cbn [eval_all]; intros exp ks' ok H; [apply Ok_inj in H; injection H as <- _; reflexivity|].
  destruct (kbd_eval _ _) as [[k1 o1]| | |]; cbn [bind] in H; try discriminate H.
  destruct (eval_all r exp) as [[r1 o2]| | |] eqn:E; cbn [bind] in H; try discriminate H.
  apply Ok_inj in H. apply pair_equal_spec in H as [<- _]. cbn [length]. f_equal. eauto.
Qed.
Lemma clear_vkbd_same d : d_gen (clear_vkbd d) = d_gen d /\ d_ents (clear_vkbd d) = d_ents d /\
  d_active (clear_vkbd d) = d_active d /\ d_devs (clear_vkbd d) = d_devs d /\ d_lst (clear_vkbd d) = d_lst d /\
  d_timeout (clear_vkbd d) = d_timeout d /\ d_last (clear_vkbd d) = d_last d.
Proof.
  unfold clear_vkbd. generalize (seq 0 256) as l. intros l. revert d.
  induction l as [|i l IH]; cbn [fold_left]; intros d; [repeat split; auto|].
  destruct (IH (clear_key d i)) as (A & B & C & D & E & F & G). rewrite A, B, C, D, E, F, G.
  unfold clear_key. destruct (d_ks d _); repeat split; reflexivity.
Qed.
Lemma reload_ptr texts grabs d d' : reload texts grabs d = Ok d' -> PR d d'.
Proof.
  intros H [P1 P2 P3 P4]. apply reload_inv in H as (ents & _ & ->).
  destruct (clear_vkbd_same (reload_base texts grabs d ents)) as (A & B & C & D & _ & _ & _).
  unfold reload_base in *. cbn [d_gen d_ents d_active d_devs set_d_devs set_d_ents set_d_gen] in *.
  constructor; unfold live; rewrite ?A, ?B, ?C, ?D.
  - intros dv p Hin Hd. apply manage_all_in in Hin as (x & g & Hx & ->).
    apply manage_live in Hd as [L|[Hv Hd]].
    + exact L.
    + rewrite (P2 _ Hx Hv) in Hd. discriminate Hd.
  - intros dv Hin Hv. apply manage_all_in in Hin as (x & g & Hx & ->).
    destruct (manage_virtual (set_d_ents ents (set_d_gen (S (d_gen d)) d)) g x) as [M1 M2].
    rewrite M1 in Hv. rewrite (M2 Hv). auto.
  - intros p Hp. left. destruct (P3 p Hp) as [L|[L1 L2]]; [lia|].
    destruct (d_gen d) as [|g]; [|lia]. rewrite P4 in L2 by reflexivity. cbn in L2. lia.
  - discriminate.
Qed.
Lemma handler_ptr fuel wr ev ts d d' t : event_handler fuel wr ev ts d = Ok (d', t) -> PR d d'.
Proof.
  apply handler_keeps; intros; try (apply ptr_same; reflexivity).
  - intros h. auto.
  - unfold dsend_key. repeat match goal with |- context [if ?b then _ else _] => destruct b end;
    apply ptr_same; reflexivity.
  - apply ptr_same; try reflexivity. unfold store. cbn [d_ents set_d_ents]. apply upd_length.
  - intros [P1 P2 P3 P4]. destruct H as (i & dv & Hn & Hd). apply nth_error_In in Hn.
    constructor; cbn [d_devs d_active set_d_active]; auto.
    intros q [= <-]. right. apply (P1 _ _ Hn Hd).
  - apply ptr_same; try reflexivity. cbn [d_ents set_d_ents]. eapply eval_length; eauto.
  - eapply reload_ptr; eauto.
  - intros [P1 P2 P3 P4]. apply nth_error_In in H. constructor; cbn [d_devs d_active set_d_devs]; auto.
    + intros x p Hx Hd. apply In_upd in Hx as [->|Hx]; [|exact (P1 _ _ Hx Hd)].
      apply manage_live in Hd as [L|[Hv Hd]]; [exact L|]. rewrite (P2 _ H Hv) in Hd. discriminate Hd.
    + intros x Hx Hv. apply In_upd in Hx as [->|Hx]; [|auto].
      rewrite (proj1 (manage_virtual _ _ _)) in Hv. rewrite (proj2 (manage_virtual _ _ _) Hv). auto.
Qed.
Lemma ptr_devs d devs : (forall x, In x devs -> In x (d_devs d) \/ unbound x \/ exists y, In y (d_devs d) /\ x = set_dv_open false y) ->
  ptr_ok d -> ptr_ok (set_d_devs devs d).
Proof.
  intros H [P1 P2 P3 P4]. constructor; cbn [d_devs d_active set_d_devs]; auto.
  - intros dv p Hin Hd. destruct (H _ Hin) as [Hi|[Hi|(y & Hy & ->)]].
    + exact (P1 _ _ Hi Hd).
    + rewrite Hi in Hd. discriminate Hd.
    + exact (P1 _ _ Hy Hd).
  - intros dv Hin Hv. destruct (H _ Hin) as [Hi|[Hi|(y & Hy & ->)]]; auto. exact (P2 _ Hy Hv).
Qed.
Lemma runs_ptr fuel wr l : runs fuel wr l -> seen fuel wr ptr_ok l.
Proof.
  induction 1 as [texts devs grabs ts l Hf H|r l l' Hr IH Hf H].
  - unfold start in H. destruct (reload _ _ _) as [d| | |] eqn:Er; cbn [bind] in H; try discriminate H.
    destruct (calls _ _ _ _ _) as [l1| | |] eqn:E; cbn [bind] in H; try discriminate H.
    apply Ok_inj in H. subst. cbn [lp_d].
    apply (calls_inv fuel wr ptr_ok) in E; [exact E|intros; eapply handler_ptr; eauto|].
    split; [|intros ? ? ? ? []]. cbn [lp_d]. apply ptr_devs.
    { intros x Hx. right. left. rewrite Forall_forall in Hf. auto. }
    eapply reload_ptr; eauto. constructor; cbn [d_init d_devs d_active]; [intros ? ? []|intros ? []|discriminate|reflexivity].
  - eapply (round_inv fuel wr ptr_ok unbound); eauto.
    + intros. eapply handler_ptr; eauto.
    + intros i dv d Hn. apply ptr_devs. intros x Hx. apply In_upd in Hx as [->|Hx]; [|auto].
      right. right. exists dv. split; [now apply nth_error_In in Hn|reflexivity].
    + intros i dv d Hn. apply ptr_devs. intros x Hx. apply In_upd in Hx as [->|Hx]; [|auto].
      left. now apply nth_error_In in Hn.
    + intros dv d Hu. apply ptr_devs. intros x Hx. apply in_app_iff in Hx as [Hx|[<-|[]]]; auto.
    + intros d. apply ptr_devs. intros x Hx. apply filter_In in Hx as [Hx _]. auto.
Qed.
Lemma live_deref d p : live d p -> exists k, deref d p = Ok k.
Proof.
  intros [A B]. unfold deref. rewrite A, Nat.eqb_refl.
  destruct (nth_error (d_ents d) (snd p)) eqn:E; [eauto|]. apply nth_error_None in E. lia.
Qed.

(* ---- C46 ------------------------------------------------------------------------ *)
Definition AR (d d' : dstate) : Prop := d_active d <> None -> d_active d' <> None.
Definition TR (d d' : dstate) : Prop := d_timeout d' = d_timeout d /\ AR d d'.
Lemma dsend_same c s d : d_timeout (dsend_key c s d) = d_timeout d /\ d_active (dsend_key c s d) = d_active d.
Proof.
  unfold dsend_key. repeat match goal with |- context [if ?b then _ else _] => destruct b end; auto.
Qed.
Lemma handler_active fuel wr ev ts d d' t : event_handler fuel wr ev ts d = Ok (d', t) -> AR d d'.
Proof.
  apply handler_keeps; intros; try (intros h; exact h).
  - intros h. auto.
  - intros h. rewrite (proj2 (dsend_same _ _ _)). exact h.
  - intros h. discriminate.
  - intros h. apply reload_inv in H as (ents & _ & ->).
    destruct (clear_vkbd_same (reload_base texts grabs d0 ents)) as (_ & _ & -> & _). exact h.
Qed.
Lemma device_result fuel wr i de ts d d' r : device_event fuel wr i de ts d = Ok (d', r) ->
  if runs_engine d (EvDev i de)
  then (exists t, r = Some t) /\ d_active d' <> None
  else r = None \/ r = Some (d_timeout d).
Proof.
  intros H.
  assert (A : AR (match nth_error (d_devs d) i with
                  | Some dv => match dv_data dv with Some p => set_d_active (Some p) d | None => d end
                  | None => d end) d').
  { unfold device_event in H. destruct (nth_error (d_devs d) i) as [dv|] eqn:En; [|discriminate H].
    destruct (dv_data dv) as [p|] eqn:Ed.
    - enough (AR d d' /\ (d_active d' = None -> False)) as [_ K] by (intros _ E; auto).
      assert (B : AR (set_d_active (Some p) d) d').
      { pose (d1 := set_d_active (Some p) d).
        assert (H1 : device_event fuel wr i de ts d1 = Ok (d', r)).
        { unfold device_event. cbn [d1 d_devs set_d_active]. rewrite En, Ed. exact H. }
        revert H1. apply device_keeps; intros; try (intros h; exact h).
        - intros h. auto.
        - intros h. rewrite (proj2 (dsend_same _ _ _)). exact h.
        - intros h. discriminate. }
      assert (d_active d' <> None) by (apply B; discriminate). split; [intros _; exact H0|exact H0].
    - assert (H1 : device_event fuel wr i de ts d = Ok (d', r)).
      { unfold device_event. rewrite En, Ed. exact H. }
      revert H1. apply device_keeps; intros; try (intros h; exact h).
      + intros h. auto.
      + intros h. rewrite (proj2 (dsend_same _ _ _)). exact h.
      + intros h. discriminate. }
  unfold device_event in H. cbn [runs_engine]. destruct (nth_error (d_devs d) i) as [dv|] eqn:En; [|discriminate H].
  destruct (dv_data dv) as [p|] eqn:Ed.
  - assert (B : d_active d' <> None) by (apply A; discriminate). clear A.
    destruct (de_type de).
    + destruct (run_kbd _ _ _ _ _) as [[d2 t1]| | |] eqn:E; cbn [bind] in H; try discriminate H.
      apply Ok_inj in H. injection H as <- <-. eauto.
    + apply Ok_inj in H. injection H as _ <-. auto.
    + destruct (deref _ p) as [k| | |]; cbn [bind] in H; try discriminate H.
      destruct (s_active (k_scroll k)).
      * destruct (scroll_move _ _ _) as [[s vs]| | |]; cbn [bind] in H; try discriminate H.
        apply Ok_inj in H. injection H as _ <-. auto.
      * apply Ok_inj in H. injection H as _ <-. auto.
    + apply Ok_inj in H. injection H as _ <-. auto.
    + destruct (de_x de =? 0)%Z eqn:Ex, (de_y de =? 0)%Z eqn:Ey; cbn [bind andb negb] in *.
      * apply Ok_inj in H. injection H as _ <-. auto.
      * match type of H with bind ?x _ = _ => destruct x as [[d3 t3]| | |] end; cbn [bind] in H; try discriminate H.
        apply Ok_inj in H. injection H as <- <-. eauto.
      * match type of H with bind ?x _ = _ => destruct x as [[d3 t3]| | |] end; cbn [bind] in H; try discriminate H.
        apply Ok_inj in H. injection H as <- <-. eauto.
      * match type of H with bind ?x _ = _ => destruct x as [[d3 t3]| | |] end; cbn [bind] in H; try discriminate H.
        match type of H with bind ?x _ = _ => destruct x as [[d4 t4]| | |] end; cbn [bind] in H; try discriminate H.
        apply Ok_inj in H. injection H as <- <-. eauto.
    + apply Ok_inj in H. injection H as _ <-. auto.
  - destruct (negb (dv_virtual dv) && negb (N.land (dv_caps dv) CAP_MOUSE =? 0)); cbn [andb].
    + destruct (d_active d) as [p|] eqn:Ea; cbn [andb].
      * assert (B : d_active d' <> None) by (apply A; rewrite Ea; discriminate).
        destruct (de_type de); try (apply Ok_inj in H; injection H as _ <-; auto);
        destruct (process_keypress _ _ _ _ _ _) as [[d2 t1]| | |] eqn:E; cbn [bind] in H; try discriminate H;
        apply Ok_inj in H; injection H as <- <-; eauto.
      * apply Ok_inj in H. injection H as _ <-. auto.
    + destruct (dv_virtual dv); [destruct (de_type de)|]; apply Ok_inj in H; injection H as _ <-; auto.
Qed.

(* what a call does to the daemon's own book-keeping *)
Lemma handler_times fuel wr ev ts d d' t : event_handler fuel wr ev ts d = Ok (d', t) ->
  d_last d' = ts /\
  if runs_engine d ev then d_timeout d' = t /\ d_active d' <> None
  else d_timeout d' = Z.max 0 (d_timeout d - (ts - d_last d)) /\
       (t = d_timeout d' \/ ev = EvTimeout /\ d_active d = None /\ t = 0%Z).
Proof.
  intros H. pose proof (handler_active _ _ _ _ _ _ _ H) as Ac. unfold event_handler in H.
  set (t0 := Z.max 0 (d_timeout d - (ts - d_last d))) in *.
  destruct ev as [|i de|i grab|i|con m texts grabs].
  - cbn [runs_engine]. cbn [d_active set_d_times] in H. destruct (d_active d) as [p|] eqn:Ea.
    + destruct (run_kbd _ _ _ _ _) as [[d2 t2]| | |] eqn:E; cbn [bind] in H; try discriminate H.
      apply Ok_inj in H. injection H as <- <-. cbn [d_last d_timeout set_d_times].
      split; [reflexivity|]. split; [reflexivity|]. apply Ac. rewrite Ea. discriminate.
    + apply Ok_inj in H. injection H as <- <-. cbn [d_last d_timeout set_d_times]. auto 10.
  - destruct (device_event _ _ _ _ _ _) as [[d2 r]| | |] eqn:E; cbn [bind] in H; try discriminate H.
    apply Ok_inj in H. injection H as <- <-. apply device_result in E.
    change (runs_engine (set_d_times ts t0 d) (EvDev i de)) with (runs_engine d (EvDev i de)) in E.
    cbn [d_last d_timeout d_active set_d_times] in *. split; [reflexivity|].
    destruct (runs_engine d (EvDev i de)).
    + destruct E as [[t ->] E]. auto.
    + destruct E as [-> | ->]; auto.
  - cbn [runs_engine]. destruct (nth_error _ i) as [dv|]; [|discriminate H]. cbn [bind] in H.
    apply Ok_inj in H. injection H as <- <-. cbn [d_last d_timeout set_d_times]. auto.
  - cbn [runs_engine]. cbn [bind] in H. apply Ok_inj in H. injection H as <- <-. cbn [d_last d_timeout set_d_times]. auto.
  - cbn [runs_engine]. destruct (handle_client _ _ _ _ _ _) as [d2| | |] eqn:E; cbn [bind] in H; try discriminate H.
    apply Ok_inj in H. injection H as <- <-. cbn [d_last d_timeout set_d_times]. auto.
Qed.

(* the invariant of the timer, at a time now not before the last call *)
Definition timer_ok (l : lstate) (now : Z) : Prop :=
  (d_last (lp_d l) <= now)%Z /\
  match deadline (lp_calls l) with
  | Some D => (now < D)%Z /\ d_timeout (lp_d l) = (D - d_last (lp_d l))%Z /\ lp_timeout l = (D - now)%Z /\
              d_active (lp_d l) <> None
  | None => (d_timeout (lp_d l) <= 0)%Z /\ (lp_timeout l <= 0)%Z
  end.
Lemma call_timer fuel wr ev now l l' : call fuel wr ev now l = Ok l' -> timer_ok l now -> timer_ok l' now.
Proof.
  unfold call. intros H [T1 T2].
  destruct (event_handler _ _ _ _ _) as [[d t]| | |] eqn:E; cbn [bind] in H; try discriminate H.
  apply Ok_inj in H. subst. unfold timer_ok. cbn [lp_d lp_timeout lp_calls deadline].
  pose proof (handler_active _ _ _ _ _ _ _ E) as Ac. apply handler_times in E as [E1 E2]. split; [lia|].
  destruct (runs_engine (lp_d l) ev).
  - destruct E2 as [E2 E3]. destruct (Z.ltb_spec 0 t).
    + repeat split; auto; lia.
    + lia.
  - destruct E2 as [E2 E3]. destruct (deadline (lp_calls l)) as [D|].
    + destruct T2 as (A & B & C & F). destruct E3 as [->|(_ & Z0 & _)]; [|contradiction].
      repeat split; auto; lia.
    + destruct T2 as [A B]. destruct E3 as [->|(_ & _ & ->)]; lia.
Qed.
(* a call at the same time after the timer ran out *)
Lemma timeout_timer fuel wr now l l' : call fuel wr EvTimeout now l = Ok l' ->
  (d_last (lp_d l) <= now)%Z -> d_active (lp_d l) <> None -> timer_ok l' now.
Proof.
  unfold call. intros H T1 Ha.
  destruct (event_handler _ _ _ _ _) as [[d t]| | |] eqn:E; cbn [bind] in H; try discriminate H.
  apply Ok_inj in H. subst. unfold timer_ok. cbn [lp_d lp_timeout lp_calls deadline].
  apply handler_times in E as [E1 E2]. split; [lia|]. cbn [runs_engine] in *.
  destruct (d_active (lp_d l)) as [p|]; [|contradiction]. destruct E2 as [E2 E3].
  destruct (Z.ltb_spec 0 t); [repeat split; auto; lia|lia].
Qed.
(* changes of the device table do not matter *)
Lemma timer_ext l l' now : d_last (lp_d l') = d_last (lp_d l) -> d_timeout (lp_d l') = d_timeout (lp_d l) ->
  d_active (lp_d l') = d_active (lp_d l) -> lp_timeout l' = lp_timeout l -> lp_calls l' = lp_calls l ->
  timer_ok l now -> timer_ok l' now.
Proof. intros A B C D E. unfold timer_ok. now rewrite A, B, C, D, E. Qed.

Definition is_timer (c : dstate * event * Z * Z) : bool :=
  let '(_, ev, _, _) := c in match ev with EvTimeout => true | _ => false end.
(* the calls of a part of a round: none is a timer *)
Definition quietly (l l' : lstate) : Prop :=
  exists more, lp_calls l' = more ++ lp_calls l /\ Forall (fun c => is_timer c = false) more.
Lemma quietly_refl l : quietly l l.
Proof. now exists []. Qed.
Lemma quietly_trans a b c : quietly a b -> quietly b c -> quietly a c.
Proof.
  intros (m1 & A1 & B1) (m2 & A2 & B2). exists (m2 ++ m1). split; [rewrite A2, A1; apply app_assoc|].
  apply Forall_app. auto.
Qed.
Lemma call_quietly fuel wr ev now l l' : ev <> EvTimeout -> call fuel wr ev now l = Ok l' -> quietly l l'.
Proof.
  unfold call. intros He H. destruct (event_handler _ _ _ _ _) as [[d t]| | |]; cbn [bind] in H; try discriminate H.
  apply Ok_inj in H. subst. eexists [_]. split; [reflexivity|]. apply Forall_cons; [|constructor].
  unfold is_timer. now destruct ev.
Qed.

Section Timer.
  Variables (fuel : nat) (wr : nat -> bool).
  Let both now l l' := (timer_ok l now -> timer_ok l' now) /\ quietly l l'.
  Lemma both_call ev now l l' : ev <> EvTimeout -> call fuel wr ev now l = Ok l' -> both now l l'.
  Proof. split; [eapply call_timer; eauto|eapply call_quietly; eauto]. Qed.
  Lemma both_trans now a b c : both now a b -> both now b c -> both now a c.
  Proof. intros [A B] [C D]. split; [auto|eapply quietly_trans; eauto]. Qed.
  Lemma both_calls evs : Forall (fun e => e <> EvTimeout) evs -> forall now l l', calls fuel wr evs now l = Ok l' -> both now l l'.
  Proof.
    induction 1 as [|e r He Hf IH]; cbn [calls]; intros now l l' H.
    - apply Ok_inj in H. subst. split; [auto|apply quietly_refl].
    - destruct (call _ _ _ _ _) as [l1| | |] eqn:E; cbn [bind] in H; try discriminate H.
      eapply both_trans; [eapply both_call; eauto|eauto].
  Qed.
  Lemma both_add devs : forall now l l', add_devices fuel wr devs now l = Ok l' -> both now l l'.
  Proof.
    induction devs as [|[dv g] r IH]; cbn [add_devices]; intros now l l' H.
    - apply Ok_inj in H. subst. split; [auto|apply quietly_refl].
    - destruct (Nat.ltb _ 64); [|discriminate H].
      destruct (call _ _ _ _ _) as [l1| | |] eqn:E; cbn [bind] in H; try discriminate H.
      apply both_call in E; [|discriminate]. apply IH in H. destruct E as [E1 E2]. eapply both_trans; [|exact H].
      split; [|exact E2]. intros T. apply E1. eapply timer_ext; [..|exact T]; reflexivity.
  Qed.
  Lemma both_read i rs : forall now l l', read_device fuel wr i rs now l = Ok l' -> both now l l'.
  Proof.
    induction rs as [|r rs IH]; cbn [read_device]; intros now l l' H.
    - apply Ok_inj in H. subst. split; [auto|apply quietly_refl].
    - destruct (nth_error (d_devs (lp_d l)) i) as [dv|] eqn:En; [|discriminate H].
      destruct (device_read_event _ _ _) as [[de ret]| | |]; cbn [bind] in H; try discriminate H.
      destruct ret; cbn [negb] in H.
      2:{ apply Ok_inj in H. subst. split; [intros T; eapply timer_ext; [..|exact T]; reflexivity|now exists []]. }
      destruct (de_type de).
      6:{ destruct (call _ _ _ _ _) as [l2| | |] eqn:E; cbn [bind] in H; try discriminate H.
          apply both_call in E; [|discriminate]. destruct E as [E1 E2].
          apply Ok_inj in H. subst. split.
          - intros T. eapply timer_ext; [..|apply E1; eapply timer_ext; [..|exact T]]; reflexivity.
          - exact E2. }
      all: destruct (panic_check _ _ _) as [s die]; destruct die;
        [apply Ok_inj in H; subst; split; [intros T; eapply timer_ext; [..|exact T]; reflexivity|now exists []]|];
        destruct (call _ _ _ _ _) as [l2| | |] eqn:E; cbn [bind] in H; try discriminate H;
        apply both_call in E; [|discriminate]; destruct E as [E1 E2]; apply IH in H;
        (eapply both_trans; [|exact H]); (split; [|exact E2]);
        intros T; apply E1; eapply timer_ext; [..|exact T]; reflexivity.
  Qed.
  Lemma both_reads reads is : forall now l l', read_devices fuel wr reads is now l = Ok l' -> both now l l'.
  Proof.
    induction is as [|i r IH]; cbn [read_devices]; intros now l l' H.
    - apply Ok_inj in H. subst. split; [auto|apply quietly_refl].
    - destruct (lp_dead l); [apply Ok_inj in H; subst; split; [auto|apply quietly_refl]|].
      destruct (read_device _ _ _ _ _ _) as [l1| | |] eqn:E; cbn [bind] in H; try discriminate H.
      apply both_read in E. apply IH in H. eapply both_trans; eauto.
  Qed.
  Lemma round_timer r l l' : loop_round fuel wr r l = Ok l' -> lp_dead l = false ->
    (r_start r <= r_stop r)%Z -> timer_ok l (r_start r) ->
    timer_ok l' (r_stop r) /\
    exists more, lp_calls l' = more ++ lp_calls l /\
      match deadline (lp_calls l) with
      | Some D => if (D <=? r_stop r)%Z
                  then exists newer t, more = newer ++ [(lp_d l, EvTimeout, r_stop r, t)] /\ runs_engine (lp_d l) EvTimeout = true /\ Forall (fun c => is_timer c = false) newer
                  else Forall (fun c => is_timer c = false) more
      | None => Forall (fun c => is_timer c = false) more
      end.
  Proof.
    intros H Hd Hm T. apply round_cases in H as [[_ Hd']|(_ & l1 & l2 & E1 & E2 & H)]; [congruence|].
    assert (B : both (r_stop r) l1 l').
    { apply both_reads in E2. destruct H as [[_ ->]|(_ & l3 & l4 & E3 & E4 & ->)]; [exact E2|].
      apply both_calls in E3; [|apply Forall_forall; intros e He; apply in_map_iff in He as ([[[c m] x] g] & <- & _); discriminate].
      apply both_add in E4. eapply both_trans; [eapply both_trans; [eapply both_trans|]|];
        [exact E2|exact E3|exact E4|].
      split; [intros X; eapply timer_ext; [..|exact X]; reflexivity|now exists []]. }
    destruct B as [B1 (more & C1 & C2)].
    destruct T as [T1 T2].
    destruct (deadline (lp_calls l)) as [D|] eqn:Ed.
    - destruct T2 as (A & T2 & T3 & T4). rewrite T3 in E1.
      destruct (Z.leb_spec D (r_stop r)) as [Le|Lt].
      + replace ((0 <? D - r_start r) && (D - r_start r <=? r_stop r - r_start r))%Z%bool with true in E1
          by (symmetry; apply andb_true_iff; rewrite Z.ltb_lt, Z.leb_le; lia).
        split; [apply B1; eapply timeout_timer; eauto; lia|].
        unfold call in E1. destruct (event_handler _ _ _ _ _) as [[d t]| | |]; cbn [bind] in E1; try discriminate E1.
        apply Ok_inj in E1. subst l1. cbn [lp_calls] in C1.
        exists (more ++ [(lp_d l, EvTimeout, r_stop r, t)]). rewrite C1, <- app_assoc. split; [reflexivity|].
        exists more, t. split; [reflexivity|]. split; [|exact C2]. unfold runs_engine. now destruct (d_active (lp_d l)).
      + replace ((0 <? D - r_start r) && (D - r_start r <=? r_stop r - r_start r))%Z%bool with false in E1
          by (symmetry; apply andb_false_iff; right; rewrite Z.leb_gt; lia).
        apply Ok_inj in E1. subst l1. cbn [lp_calls] in C1. split; [|exists more; auto].
        apply B1. unfold timer_ok. cbn [lp_d lp_timeout lp_calls]. rewrite Ed. repeat split; auto; lia.
    - destruct T2 as [T2 T3].
      replace ((0 <? lp_timeout l) && (lp_timeout l <=? r_stop r - r_start r))%Z%bool with false in E1
        by (symmetry; apply andb_false_iff; left; rewrite Z.ltb_ge; lia).
      apply Ok_inj in E1. subst l1. cbn [lp_calls] in C1. split; [|exists more; auto].
      apply B1. unfold timer_ok. cbn [lp_d lp_timeout lp_calls]. rewrite Ed. lia.
  Qed.
  Lemma prompt_timer l now : prompt fuel wr l now -> lp_dead l = false -> timer_ok l now.
  Proof.
    induction 1 as [texts devs grabs ts l Hts H|r l l' now Hp IH Hs Hm H]; intros Hd.
    - unfold start in H. destruct (reload _ _ _) as [d| | |] eqn:Er; cbn [bind] in H; try discriminate H.
      destruct (calls _ _ _ _ _) as [l1| | |] eqn:E; cbn [bind] in H; try discriminate H.
      apply Ok_inj in H. subst.
      assert (Ld : d_last d = 0%Z /\ d_timeout d = 0%Z).
      { apply reload_inv in Er as (ents & _ & ->).
        destruct (clear_vkbd_same (reload_base texts grabs (d_init []) ents)) as (_ & _ & _ & _ & _ & -> & ->). auto. }
      set (l0 := mkL (set_d_devs devs d) 0 zero_de (mkPanic 0 0 0) false [] []) in *.
      assert (T0 : timer_ok l0 ts).
      { unfold timer_ok, l0. cbn [lp_d lp_timeout lp_calls deadline d_last d_timeout set_d_devs]. lia. }
      assert (Fa : forall n m, Forall (fun e => e <> EvTimeout /\ forall d, runs_engine d e = false)
                     (map (fun i => EvAdd i (grabs i)) (seq n m))).
      { intros n m. apply Forall_forall. intros e He. apply in_map_iff in He as (i & <- & _). split; [discriminate|reflexivity]. }
      assert (K : timer_ok l1 ts /\ deadline (lp_calls l1) = None).
      { specialize (Fa 0%nat (length devs)). revert Fa E T0.
        assert (N0 : deadline (lp_calls l0) = None) by reflexivity.
        revert N0. clearbody l0. generalize (map (fun i => EvAdd i (grabs i)) (seq 0 (length devs))) as evs.
        intros evs. revert l0. induction evs as [|e r IH]; cbn [calls]; intros l0 N0 Fa E T0.
        - apply Ok_inj in E. now subst.
        - destruct (call _ _ _ _ _) as [l2| | |] eqn:Ec; cbn [bind] in E; try discriminate E.
          eapply IH; [|exact (Forall_inv_tail Fa)|exact E|eapply call_timer; eauto].
          unfold call in Ec. destruct (event_handler _ _ _ _ _) as [[d2 t]| | |]; cbn [bind] in Ec; try discriminate Ec.
          apply Ok_inj in Ec. subst l2. cbn [lp_calls deadline].
          destruct (Forall_inv Fa) as [_ Hr]. now rewrite Hr. }
      destruct K as [[K1 K2] K3]. unfold timer_ok. cbn [lp_d lp_timeout lp_calls]. rewrite K3 in *. lia.
    - assert (Hd0 : lp_dead l = false).
      { apply round_cases in H as [[-> H]|[H _]]; congruence. }
      subst now. eapply round_timer in H; [|exact Hd0|exact Hm|auto]. tauto.
  Qed.
End Timer.
