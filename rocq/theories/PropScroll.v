(* C43: scroll mode conserves motion. *)
From Coq Require Import String.
From Verif Require Import Base Lib Types Keys Kbd Config Match Device Daemon SpecDaemon DaemonProofs PropDaemon.
Local Open Scope list_scope.
Local Open Scope N_scope.
Local Notation length := List.length.

Lemma sum_app a b : sum (a ++ b) = (sum a + sum b)%Z.
Proof. induction a as [|x a IH]; cbn [app sum fold_right]; [reflexivity|]. fold (sum (a ++ b)) (sum a). lia. Qed.

Lemma scroll_step s x y s' vs : scroll_move s x y = Ok (s', vs) -> s_sens s <> 0%Z ->
  exists tx ty, vs = [VScroll 0 (- ty); VScroll 0 tx] /\ s_sens s' = s_sens s /\ s_active s' = s_active s /\
    (s_x s' + s_sens s * tx = s_x s + x)%Z /\ (s_y s' + s_sens s * ty = s_y s + y)%Z /\
    (Z.abs (s_x s') < Z.abs (s_sens s))%Z /\ (Z.abs (s_y s') < Z.abs (s_sens s))%Z.
Proof.
  unfold scroll_move. intros H Hs. destruct (Z.eqb_spec (s_sens s) 0); [contradiction|].
  match type of H with (if ?b then _ else _) = _ => destruct b; [|discriminate H] end.
  apply Ok_inj in H. apply pair_equal_spec in H as [<- <-]. cbn [s_x s_y s_sens s_active].
  exists (Z.quot (s_x s + x) (s_sens s)), (Z.quot (s_y s + y) (s_sens s)).
  pose proof (Z.quot_rem (s_x s + x) (s_sens s) Hs). pose proof (Z.quot_rem (s_y s + y) (s_sens s) Hs).
  pose proof (Z.rem_bound_abs (s_x s + x) (s_sens s) Hs). pose proof (Z.rem_bound_abs (s_y s + y) (s_sens s) Hs).
  replace (-1 * Z.quot (s_y s + y) (s_sens s))%Z with (- Z.quot (s_y s + y) (s_sens s))%Z by lia.
  split; [reflexivity|]. repeat split; try reflexivity; lia.
Qed.

Lemma deref_store d p k k0 : deref d p = Ok k0 -> deref (store p k d) p = Ok k.
Proof.
  unfold deref, store. cbn [d_gen d_ents set_d_ents]. destruct (Nat.eqb _ _); [|discriminate].
  intros H. destruct (nth_error (d_ents d) (snd p)) as [k1|] eqn:E; [|discriminate H].
  assert (X : nth_error (upd (snd p) k (d_ents d)) (snd p) = Some k); [|now rewrite X].
  revert E. generalize (snd p) as n. generalize (d_ents d) as l. clear.
  induction l as [|a l IH]; intros [|n] E; try discriminate E; [reflexivity|]. cbn in *. now apply IH.
Qed.

(* one motion *)
Lemma handler_move fuel wr i p code pressed x y ts d d' t : bound d i p ->
  event_handler fuel wr (EvDev i (mkDe DevMove code pressed x y)) ts d = Ok (d', t) ->
  bound d' i p /\
  exists s, scroll_at d p = Some s /\
    if s_active s then exists s' vs, scroll_move s x y = Ok (s', vs) /\ scroll_at d' p = Some s' /\ d_out d' = rev vs ++ d_out d
    else scroll_at d' p = Some s /\ d_out d' = VMove x y :: d_out d.
Proof.
  intros (dv & Hn & Hp) H. unfold event_handler in H. set (d0 := set_d_times _ _ d) in *. cbv beta zeta in H.
  unfold device_event in H. change (d_devs d0) with (d_devs d) in H. rewrite Hn, Hp in H. cbn [de_type de_x de_y] in H.
  change (deref (set_d_active (Some p) d0) p) with (deref d p) in H.
  destruct (deref d p) as [k| | |] eqn:Ek; cbn [bind] in H; try discriminate H.
  assert (Hs : scroll_at d p = Some (k_scroll k)) by (unfold scroll_at; now rewrite Ek).
  destruct (s_active (k_scroll k)) eqn:Ea.
  - destruct (scroll_move (k_scroll k) x y) as [[s' vs]| | |] eqn:Es; cbn [bind] in H; try discriminate H.
    apply Ok_inj in H. apply pair_equal_spec in H as [<- _].
    assert (Hemit : forall l d, fold_left (fun d v => vemit v d) l d = set_d_out (rev l ++ d_out d) d).
    { induction l as [|v l IH]; intros e; cbn [fold_left rev app]; [destruct e; reflexivity|].
      rewrite IH. unfold vemit. rewrite <- app_assoc. reflexivity. }
    rewrite Hemit. split; [exists dv; split; assumption|]. exists (k_scroll k). split; [exact Hs|]. rewrite Ea.
    exists s', vs. split; [exact Es|]. split; [|reflexivity].
    unfold scroll_at.
    assert (Ek' : deref (set_d_active (Some p) d0) p = Ok k) by exact Ek.
    pose proof (deref_store _ _ (set_k_scroll s' k) _ Ek') as X.
    match goal with |- match deref ?e p with _ => _ end = _ => change (deref e p) with (deref (store p (set_k_scroll s' k) (set_d_active (Some p) d0)) p) end.
    rewrite X. reflexivity.
  - apply Ok_inj in H. apply pair_equal_spec in H as [<- _].
    split; [exists dv; split; assumption|]. exists (k_scroll k). split; [exact Hs|]. rewrite Ea. split; [|reflexivity].
    exact Hs.
Qed.

(* In scroll mode with sensitivity s: every motion makes two scroll events with ticks ty
   (negated) and tx; the ticks times s plus what is left in the accumulators are the
   initial contents plus the motion; what is left is less than one tick. *)
Theorem C43_conserved : forall fuel wr i p d ms out d' x0 y0 s, moved fuel wr i p d ms out d' ->
  scroll_at d p = Some (mkScroll x0 y0 s true) -> s <> 0%Z ->
  exists ticks rx ry, out = flat_map (fun t => [VScroll 0 (fst t); VScroll 0 (- snd t)]) (rev ticks) /\
    length ticks = length ms /\ scroll_at d' p = Some (mkScroll rx ry s true) /\
    (rx + s * sum (map fst ticks) = x0 + sum (map fst ms))%Z /\
    (ry + s * sum (map snd ticks) = y0 + sum (map snd ms))%Z /\
    (ms <> [] -> (Z.abs rx < Z.abs s)%Z /\ (Z.abs ry < Z.abs s)%Z).
Proof.
  intros fuel wr i p d ms out d' x0 y0 s M H0 Hs.
  assert (K : bound d' i p /\ exists ticks rx ry, out = flat_map (fun t => [VScroll 0 (fst t); VScroll 0 (- snd t)]) (rev ticks) /\
    length ticks = length ms /\ scroll_at d' p = Some (mkScroll rx ry s true) /\
    (rx + s * sum (map fst ticks) = x0 + sum (map fst ms))%Z /\
    (ry + s * sum (map snd ticks) = y0 + sum (map snd ms))%Z /\
    (ms <> [] -> (Z.abs rx < Z.abs s)%Z /\ (Z.abs ry < Z.abs s)%Z)); [|apply K].
  induction M as [B|ms out d1 code pressed x y ts d2 t new M IH H Hn|ms out d1 d2 M IH Hsc B].
  - split; [exact B|]. exists [], x0, y0. split; [reflexivity|]. split; [reflexivity|]. split; [exact H0|].
    cbn [map sum fold_right]. split; [lia|]. split; [lia|]. intros F. now destruct F.
  - destruct IH as (B & ticks & rx & ry & Ho & Hl & Hsc & Ex & Ey & _).
    apply handler_move with (p := p) in H as (B' & s1 & Hs1 & H); [|exact B].
    rewrite Hsc in Hs1. injection Hs1 as <-. cbn [s_active] in H.
    destruct H as (s' & vs & Hm & Hsc' & Hout). apply scroll_step in Hm as (tx & ty & -> & A & C & Dx & Dy & Lx & Ly); [|exact Hs].
    cbn [s_sens s_active s_x s_y] in *. split; [exact B'|].
    exists (ticks ++ [(tx, ty)]), (s_x s'), (s_y s'). rewrite Hout in Hn. apply app_inv_tail in Hn. subst new.
    split; [rewrite rev_app_distr; cbn [rev app flat_map fst snd]; now rewrite Ho|].
    split; [rewrite !app_length, Hl; reflexivity|].
    split; [rewrite Hsc'; destruct s' as [q1 q2 q3 q4]; cbn [s_sens s_active s_x s_y] in *; subst; reflexivity|].
    rewrite !map_app, !sum_app. cbn [map sum fold_right fst snd]. split; [lia|]. split; [lia|]. intros _. split; assumption.
  - destruct IH as (_ & IH). split; [exact B|]. rewrite Hsc. exact IH.
Qed.
(* Outside scroll mode motion is passed on. *)
Theorem C43_plain : forall fuel wr i p code pressed x y ts d d' t s, bound d i p -> scroll_at d p = Some s -> s_active s = false ->
  event_handler fuel wr (EvDev i (mkDe DevMove code pressed x y)) ts d = Ok (d', t) ->
  scroll_at d' p = Some s /\ d_out d' = VMove x y :: d_out d.
Proof.
  intros fuel wr i p code pressed x y ts d d' t s B Hs Ha H. apply handler_move with (p := p) in H as (_ & s1 & H1 & H); [|exact B].
  rewrite Hs in H1. injection H1 as <-. now rewrite Ha in H.
Qed.

(* When scroll mode begins and ends: while a key with action scroll(s) is held; at every
   press of a key with action togglescroll(s).  The sensitivity is that of the last such
   key, the accumulators are kept, and nothing is sent. *)
Theorem C43_mode : forall k code s dl pressed time k' toggling,
  do_desc k code (if toggling : bool then DScrollToggle s else DScroll s) dl pressed time = Ok k' ->
  k_scroll k' = mkScroll (s_x (k_scroll k)) (s_y (k_scroll k)) s
                  (if toggling then (if pressed then negb (s_active (k_scroll k)) else s_active (k_scroll k)) else pressed)
  /\ k_out k' = k_out k.
Proof.
  intros k code s dl pressed time k' toggling H. unfold do_desc, pd_fuel in H.
  destruct toggling; cbn [process_descriptor] in H; unfold pre_macro in H; destruct pressed; cbn [bind] in H; apply Ok_inj in H; subst k';
    destruct k, k_scroll; split; reflexivity.
Qed.
Example C43_mode_ex : exists k k1 k2, do_desc k 30 (DScrollToggle 10) 0 true 5 = Ok k1 /\ s_active (k_scroll k) = false
  /\ k_scroll k1 = mkScroll 0 0 10 true /\ do_desc k1 48 (DScroll 3) 0 false 9 = Ok k2 /\ k_scroll k2 = mkScroll 0 0 3 false.
Proof.
  exists (new_keyboard zero_config 0). eexists. eexists. split; [vm_compute; reflexivity|]. repeat split; vm_compute; reflexivity.
Qed.

(* ---- witnesses ------------------------------------------------------------------------ *)
Definition scroll_text : str := Eval vm_compute in
  concat (map (fun l => bs l ++ [10]) ["[ids]"; "*"; "[main]"; "a = scroll(10)"; "b = scrollt(0)"]%string).
Definition rel (c : N) (v : Z) : rd := REvent (mkIev 2 c v).
Definition s_run (rs : list round) : res lstate := simulate 50 all_ok [scroll_text] two 1 rs.
Lemma s_ex (rs : list round) (P : lstate -> bool) : Forall (fun r => r_added r = []) rs ->
  (match s_run rs with Ok l => P l | _ => false end) = true -> exists l, runs 50 all_ok l /\ P l = true.
Proof.
  unfold s_run. intros F H. destruct (simulate 50 all_ok [scroll_text] two 1 rs) as [l| | |] eqn:E; try discriminate H.
  exists l. split; [|exact H]. exact (simulate_runs 50 all_ok [scroll_text] two 1 rs l two_unbound F E).
Qed.
(* A motion to the right is turned into vertical scrolling. *)
Theorem C43_horizontal_refuted : exists l, runs 50 all_ok l /\
  reads_of l = [key 30 1; rel 0 25] /\ In (VScroll 0 2) (d_out (lp_d l)) /\ forall x y, In (VScroll x y) (d_out (lp_d l)) -> x = 0%Z.
Proof.
  destruct (s_ex [reading 1 10 [key 30 1; rel 0 25] []]
    (fun l => match reads_of l with [REvent (mkIev 1 30 1); REvent (mkIev 2 0 25)] => true | _ => false end
              && existsb (fun v => match v with VScroll x y => (x =? 0)%Z && (y =? 2)%Z | _ => false end) (d_out (lp_d l))
              && forallb (fun v => match v with VScroll x y => (x =? 0)%Z | _ => true end) (d_out (lp_d l)))) as (l & R & H).
  - no_added.
  - vm_compute. reflexivity.
  - exists l. rewrite !andb_true_iff in H. destruct H as [[H1 H2] H3]. split; [exact R|]. split; [|split].
    + revert H1. repeat match goal with |- context [match ?x with _ => _ end] => destruct x; try discriminate end. reflexivity.
    + apply existsb_exists in H2 as (v & Hv & E). destruct v; try discriminate E.
      rewrite andb_true_iff, !Z.eqb_eq in E. destruct E as [-> ->]. exact Hv.
    + intros x y Hv. rewrite forallb_forall in H3. specialize (H3 _ Hv). now apply Z.eqb_eq.
Qed.
(* What is left is not dropped when scroll mode is left and entered again. *)
Theorem C43_leftover_refuted : exists l, runs 50 all_ok l /\
  exists p s, d_active (lp_d l) = Some p /\ scroll_at (lp_d l) p = Some s /\ s_active s = true /\ s_y s = 9%Z /\
  nth_error (rev (reads_of l)) 0 = Some (key 30 1).
Proof.
  destruct (s_ex [reading 1 10 [key 30 1; rel 1 19; key 30 0; rel 1 50; key 30 1] []]
    (fun l => match d_active (lp_d l) with
              | Some p => match scroll_at (lp_d l) p with Some s => s_active s && (s_y s =? 9)%Z | None => false end
              | None => false end
              && match rev (reads_of l) with REvent e :: _ => (ie_type e =? 1) && (ie_code e =? 30) && (ie_value e =? 1)%Z | _ => false end))
    as (l & R & H).
  - no_added.
  - vm_compute. reflexivity.
  - exists l. split; [exact R|]. apply andb_true_iff in H as [H1 H2].
    destruct (d_active (lp_d l)) as [p|]; [|discriminate H1]. exists p.
    destruct (scroll_at (lp_d l) p) as [s|]; [|discriminate H1]. exists s.
    rewrite andb_true_iff, Z.eqb_eq in H1. destruct H1. repeat split; auto.
    destruct (rev (reads_of l)) as [|[e| |] r]; try discriminate H2. cbn [nth_error].
    rewrite !andb_true_iff, !N.eqb_eq, Z.eqb_eq in H2. destruct e as [ty c v]. cbn [ie_type ie_code ie_value] in H2.
    destruct H2 as [[-> ->] ->]. reflexivity.
Qed.
(* two motions in scroll mode: 7 and 8 down give one tick and a remainder of 5 *)
Example C43_ex : exists d d' out, bound d 0 (1%nat, 0%nat) /\ scroll_at d (1%nat, 0%nat) = Some (mkScroll 0 0 10 true) /\
  moved 50 all_ok 0 (1%nat, 0%nat) d [(0, 7); (0, 8)]%Z out d' /\
  out = [VScroll 0 0; VScroll 0 (-1); VScroll 0 0; VScroll 0 0] /\ scroll_at d' (1%nat, 0%nat) = Some (mkScroll 0 5 10 true).
Proof.
  assert (H : match s_run [reading 1 10 [key 30 1] []] with
              | Ok l => match scroll_at (lp_d l) (1%nat, 0%nat) with
                        | Some (mkScroll 0 0 10 true) => true | _ => false end
                        && match nth_error (d_devs (lp_d l)) 0 with
                           | Some dv => match dv_data dv with Some q => kptr_eqb q (1%nat, 0%nat) | None => false end | None => false end
                        && match event_handler 50 all_ok (EvDev 0 (mkDe DevMove 0 0 0 7)) 12 (lp_d l) with
                           | Ok (d1, _) => match event_handler 50 all_ok (EvDev 0 (mkDe DevMove 0 0 0 8)) 13 d1 with
                                           | Ok _ => true | _ => false end
                           | _ => false end
              | _ => false end = true) by (vm_compute; reflexivity).
  destruct (s_run [reading 1 10 [key 30 1] []]) as [l| | |]; try discriminate H.
  rewrite !andb_true_iff in H. destruct H as [[H1 H2] H3].
  assert (S0 : scroll_at (lp_d l) (1%nat, 0%nat) = Some (mkScroll 0 0 10 true)).
  { destruct (scroll_at (lp_d l) (1%nat, 0%nat)) as [[x y se a]|]; [|discriminate H1].
    revert H1. repeat match goal with |- context [match ?x with _ => _ end] => destruct x; try discriminate end. reflexivity. }
  assert (B0 : bound (lp_d l) 0 (1%nat, 0%nat)).
  { destruct (nth_error (d_devs (lp_d l)) 0) as [dv|] eqn:En; [|discriminate H2]. exists dv. split; [exact En|].
    destruct (dv_data dv) as [[a b]|]; [|discriminate H2]. unfold kptr_eqb in H2. cbn [fst snd] in H2.
    rewrite andb_true_iff, !Nat.eqb_eq in H2. destruct H2. now subst. }
  destruct (event_handler 50 all_ok (EvDev 0 (mkDe DevMove 0 0 0 7)) 12 (lp_d l)) as [[d1 t1]| | |] eqn:E1; try discriminate H3.
  destruct (event_handler 50 all_ok (EvDev 0 (mkDe DevMove 0 0 0 8)) 13 d1) as [[d2 t2]| | |] eqn:E2; try discriminate H3.
  pose proof (handler_move _ _ _ _ _ _ _ _ _ _ _ _ B0 E1) as (B1 & s1 & X1 & X2). rewrite S0 in X1. injection X1 as <-. cbn [s_active] in X2.
  destruct X2 as (s1' & vs1 & M1 & S1 & O1). vm_compute in M1. apply Ok_inj in M1. apply pair_equal_spec in M1 as [<- <-].
  pose proof (handler_move _ _ _ _ _ _ _ _ _ _ _ _ B1 E2) as (B2 & s2 & X1 & X2). rewrite S1 in X1. injection X1 as <-. cbn [s_active] in X2.
  destruct X2 as (s2' & vs2 & M2 & S2 & O2). vm_compute in M2. apply Ok_inj in M2. apply pair_equal_spec in M2 as [<- <-].
  exists (lp_d l), d2, ([VScroll 0 0; VScroll 0 (-1)] ++ ([VScroll 0 0; VScroll 0 0] ++ [])). split; [exact B0|]. split; [exact S0|]. split; [|split; [reflexivity|exact S2]].
  change [(0, 7)%Z; (0, 8)%Z] with (([] ++ [(0, 7)%Z]) ++ [(0, 8)%Z]).
  eapply mv_move; [eapply mv_move; [apply mv_start; exact B0|exact E1|exact O1]|exact E2|exact O2].
Qed.
Definition C43_all := (C43_mode, C43_conserved, C43_plain, C43_horizontal_refuted, C43_leftover_refuted, C43_ex).
Print Assumptions C43_all.
