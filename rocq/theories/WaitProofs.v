(* Proofs for C74. *)
From Verif Require Import Base Lib Keys Types MacroExec Kbd Steps Hist SpecMods SpecLookup SpecDefer Outside ModsProofs LookupProofs
  ClassInv StepProofs Engine OneProofs Inv DeferProofs SpecRef RefProofs RefSteps RefRun SpecWait.
From Coq Require Import Permutation.
Local Open Scope nat_scope.

Section Wait.
Variable c : config.
Notation Si pe := (S_ c pe idv).
Notation act := (act c).
Notation feed := (feed c).

(* ---- what an event leaves alone ------------------------------------------------------ *)
Definition core (m : machine) := (m_held m, m_repeat m, m_struck m).
Lemma core_adjust q dl mods m : core (adjust c q dl mods m) = core m. Proof. reflexivity. Qed.
Lemma core_typed mods t m : core (typed mods t m) = core m.
Proof. unfold typed. destruct (_ || _); reflexivity. Qed.
Lemma core_release code d dl t m : m_struck m <> code -> core (release c code d dl t m) = core m.
Proof.
  intros H. destruct d; cbn [release release_plain]; try exact (eq_refl (core m)).
  - rewrite core_typed. reflexivity.
  - unfold release_shot. destruct (m_armed m); reflexivity.
  - unfold release_shot. destruct (m_armed m); reflexivity.
  - destruct (the_macro c m0) as [|[[] ?] [|? ?]]; reflexivity.
  - cbv zeta. destruct (N.eqb_spec (m_struck m) code); [contradiction|]. reflexivity.
Qed.
Lemma ready_core m e : ev_code e <> 0%N -> m_held (ready c m e) = m_held m /\ m_repeat (ready c m e) = None /\ m_struck (ready c m e) = m_struck m.
Proof.
  intros H. unfold ready, again. set (m1 := expire c (ev_time e) m).
  assert (E : m_held m1 = m_held m /\ m_struck m1 = m_struck m).
  { unfold m1, expire. destruct (_ && _); [|auto]. split; [exact (held_end c m)|exact (struck_end c m)]. }
  clearbody m1. destruct (N.eqb_spec (ev_code e) 0); [contradiction|]. cbn [negb].
  destruct (m_repeat m1) as [[[[n0 dl] due] every]|] eqn:R; [|tauto]. destruct E as [E1 E2]. split; [exact E1|]. split; [reflexivity|exact E2].
Qed.

(* ---- a key that waits ------------------------------------------------------------------ *)
Definition beh (r : rule) : pkbeh := match r with Patient => PkUninterruptible | UntilTap => PkTap2 | Impatient => PkInterrupt1 end.
Definition pend_of (w : waiting) : pend := mkPend (w_code w) (w_layer w) (w_due w) (beh (w_rule w)) (w_queue w) (w_tap w) (w_hold w).
Definition touches (e : kev) : Prop := physical (ev_code e) \/ ev_code e = 0%N.
Definition okw (pe : fringe) (m : machine) (o : option waiting) : Prop :=
  match o with
  | None => p_code pe = 0%N /\ p_queue pe = [] /\ f_chords pe = no_chords
  | Some w => pe = unchorded_fringe (pend_of w) /\ (exists d, holding (w_code w) m = Some (d, w_layer w) /\ late_action c d) /\ physical (w_code w)
      /\ general_action c (w_tap w) /\ general_action c (w_hold w) /\ m_repeat m = None /\ m_struck m = w_code w
      /\ forall e, In e (w_queue w) -> physical (ev_code e)
  end.
Definition W (s : whole) (k : kbd) : Prop :=
  (exists pe, Si pe (x_m s) k /\ okw pe (x_m s) (x_wait s)) /\ forall e, In e (x_todo s) -> touches e.

Hypothesis Gc : general c.

Lemma settle_settled d t m : general_action c d -> settled_action c (settle c d t m).
Proof. intros H. destruct d; cbn [settle general_action] in *; try exact H. destruct (_ <=? _)%Z; apply H. Qed.
Lemma chosen m code : general_action c (fst (choose c m code)).
Proof. destruct Gc as (_ & H & _). unfold choose. destruct (widest _ _); [apply H|]. destruct (find _ _); [apply H|left; exact Logic.I]. Qed.
Lemma begun_okw (pe : fringe) m code d dl t : p_code pe = 0%N -> p_queue pe = [] -> f_chords pe = no_chords -> physical code -> m_repeat m = None -> settled_action c d ->
  okw (put_off c pe code d dl t) (begin_key c code d dl t m) (waits c code d dl t).
Proof.
  intros P1 P2 P3 Ph Hr [Sd|Ld].
  - rewrite sure_put by exact Sd. replace (waits c code d dl t) with (@None waiting) by (destruct d; first [reflexivity|contradiction Sd]). cbn [okw]. auto.
  - assert (Hh : forall m1, holding code (with_held ((code, (d, dl)) :: m_held m) m1) = Some (d, dl)).
    { intros m1. unfold holding. cbn [m_held with_held find fst]. now rewrite N.eqb_refl. }
    destruct Gc as (_ & _ & G).
    assert (Ho : exists d', holding code (begin_key c code d dl t m) = Some (d', dl) /\ late_action c d').
    { exists d. split; [|exact Ld]. destruct d; try contradiction Ld; exact (Hh m). }
    destruct d; try contradiction Ld; cbn [put_off waits okw]; unfold with_pend; rewrite P2, P3; cbn [pend_of w_code w_layer w_due w_rule w_tap w_hold w_queue beh].
    + split; [reflexivity|]. split; [exact Ho|]. split; [exact Ph|]. split; [apply G|]. split; [left; exact Ld|]. split; [exact Hr|]. split; [reflexivity|intros e []].
    + split; [reflexivity|]. split; [exact Ho|]. split; [exact Ph|]. split; [apply G|]. split; [left; exact Ld|]. split; [exact Hr|]. split; [reflexivity|intros e []].
    + split; [reflexivity|]. split; [exact Ho|]. split; [exact Ph|]. split; [apply G|]. split; [apply G|]. split; [exact Hr|]. split; [reflexivity|intros e []].
Qed.

(* ---- nothing waits ---------------------------------------------------------------------- *)
Lemma feed_idle fuel s k e k' t (pe : fringe) : x_wait s = None -> Si pe (x_m s) k -> p_code pe = 0%N -> p_queue pe = [] -> f_chords pe = no_chords ->
  (forall x, In x (x_todo s) -> touches x) -> touches e -> length (m_shots (x_m s)) < 200 ->
  process_event fuel k (ev_code e) (ev_pressed e) (ev_time e) = Ok (k', t) -> W (feed e s) k'.
Proof.
  intros Ew H P1 P2 P3 Td Te L E. pose proof (idle_sim c fuel pe (x_m s) k e k' t P3 (proj1 Gc) (proj1 (proj2 Gc)) P1 H Te L E) as H2.
  unfold SpecWait.feed. rewrite Ew. split; [|exact Td]. cbn [x_m x_wait]. eexists. split; [exact H2|].
  unfold put_off_by, put_off_as, begins. fold (ready c (x_m s) e). destruct (N.eqb_spec (ev_code e) 0) as [Ez|Hz].
  - destruct (ev_pressed e); [destruct (holding _ _)|]; cbn [okw]; auto.
  - rewrite (step_on_key c (x_m s) e Hz). unfold on_key, on_key_as. destruct Te as [Te|Te]; [|contradiction].
    destruct (ev_pressed e); [|cbn [okw]; auto]. destruct (holding _ _); [cbn [okw]; auto|].
    destruct (Nat.ltb _ _); [|cbn [okw]; auto]. pose proof (chosen (ready c (x_m s) e) (ev_code e)) as Gd.
    destruct (choose c (ready c (x_m s) e) (ev_code e)) as [d dl]. apply begun_okw; try assumption; [apply ready_core, Hz|now apply settle_settled].
Qed.

(* ---- a release that is not put off -------------------------------------------------------- *)
Lemma find_filter code code' (l : list (N * (desc * nat))) : code <> code' ->
  find (fun h => (fst h =? code)%N) (filter (fun h => negb (fst h =? code')%N) l) = find (fun h => (fst h =? code)%N) l.
Proof.
  intros H. induction l as [|h l IH]; cbn [filter find]; [reflexivity|]. destruct (N.eqb_spec (fst h) code') as [E|E]; cbn [negb find].
  - destruct (N.eqb_spec (fst h) code); [congruence|exact IH].
  - destruct (fst h =? code)%N; [reflexivity|exact IH].
Qed.
Lemma passes_okw w m e : passes w e = true -> okw (unchorded_fringe (pend_of w)) m (Some w) -> okw (unchorded_fringe (pend_of w)) (step c m e) (Some w).
Proof.
  unfold passes. rewrite !andb_true_iff, !negb_true_iff, !N.eqb_neq. intros [[[Hz Hp] _] Hw] (_ & (d & Ho & Ld) & Ph & G1 & G2 & Hr & Hs & Hq).
  destruct (ready_core m e Hz) as (R1 & R2 & R3). set (m2 := ready c m e) in *.
  assert (E : holding (w_code w) (step c m e) = holding (w_code w) m /\ m_repeat (step c m e) = None /\ m_struck (step c m e) = m_struck m).
  { rewrite (step_on_key c m e Hz). unfold on_key, on_key_as. fold m2. rewrite Hp. rewrite <- R3.
    assert (Hh : holding (w_code w) m2 = holding (w_code w) m) by (unfold holding; now rewrite R1). rewrite <- Hh.
    destruct (holding (ev_code e) m2) as [[d0 dl0]|]; [|split; [reflexivity|split; [exact R2|reflexivity]]].
    assert (Hn : m_struck (leave (ev_code e) m2) <> ev_code e) by (change (m_struck m2 <> ev_code e); congruence).
    pose proof (core_release (ev_code e) d0 dl0 (ev_time e) (leave (ev_code e) m2) Hn) as C. injection C as C1 C2 C3.
    rewrite C2, C3. split; [|split; [exact R2|reflexivity]]. unfold holding. rewrite C1. unfold leave, forget. cbn [m_held with_held with_seats]. rewrite find_filter; [reflexivity|congruence]. }
  destruct E as (E1 & E2 & E3). split; [reflexivity|]. rewrite E1, E2, E3. split; [now exists d|]. auto 8.
Qed.

(* ---- the decision --------------------------------------------------------------------------- *)
Lemma S_pend pe pe' m k : Si pe m k -> Si (with_pend pe' pe) m (set_k_pend pe' k).
Proof. intros [A R]. split; [exact A|]. destruct R. constructor; try assumption; reflexivity. Qed.
Lemma holding_forget code m : holding code (forget code m) = None.
Proof.
  unfold holding, forget. cbn [m_held with_held]. destruct (find _ _) as [h|] eqn:F; [|reflexivity].
  apply find_some in F as [F1 F2]. apply filter_In in F1 as [_ F1]. rewrite F2 in F1. discriminate.
Qed.
Lemma swap_cache pe m k code d1 dl1 a dl : Si pe m k -> code <> 0%N -> holding code m = Some (d1, dl1) -> late_action c d1 ->
  exists ca ca', cache_set k code (Some (mkCe 0 a dl 0)) = Some (set_k_cache ca k) /\ Si pe (leave code m) (set_k_cache ca' k)
    /\ forall v, (v = idv \/ exists x, v = at_code code x) -> settled_action c (v code a) ->
         sim c pe v (count (forget code m)) code (with_held ((code, (v code a, dl)) :: m_held (forget code m)) (seated code (forget code m))) (set_k_cache ca k).
Proof.
  intros H Hc Ho Ld. destruct (release_cache c pe idv m k code d1 dl1 H Hc Ho) as (i & ca' & X1 & X2 & X3 & X4 & X5 & X6 & X7).
  assert (Ct : forall j, count m j = count (leave code m) j).
  { intros j. rewrite X6. unfold kept_by. cbn [fst snd]. rewrite (late_keeps c idv d1 Ld). cbn [b2]. apply Nat.add_0_r. }
  assert (H' : Si pe (leave code m) (set_k_cache ca' k)) by (exact (sim_ext c pe idv _ _ _ _ _ Ct X5)).
  unfold cache_get in X1. pose proof (cache_slot_find code (k_cache k) 0 None i X1) as Sl.
  unfold cache_set in *. rewrite Sl in *. cbn [ce_d ce_dl ce_layer] in *. injection X4 as X4.
  apply cache_find_split in X1 as (l1 & e & l2 & E1 & N1 & Ee & Ei). cbn [Nat.add] in Ei. subst i.
  assert (Ne : nth (length l1) (k_cache k) zero_ce = e) by (rewrite E1, app_nth2 by lia; now rewrite Nat.sub_diag). rewrite Ne in X4.
  assert (Up : forall x, upd (length l1) x (k_cache k) = l1 ++ x :: l2).
  { intros x. destruct (upd_split x (k_cache k) (length l1) zero_ce) as (a1 & a2 & Y1 & Y2 & Y3).
    { rewrite E1, app_length. cbn [length]. lia. }
    rewrite E1, (app_nth2 l1) in Y1 by lia. rewrite Nat.sub_diag in Y1. cbn [nth] in Y1. apply same_split in Y1; [|lia]. destruct Y1 as [-> ->]. exact Y2. }
  rewrite Up in X4. rewrite Up. eexists. exists ca'. split; [reflexivity|]. split; [exact H'|]. intros v Hv Sv.
  pose proof H' as Hf. assert (Hv' : S_ c pe v (leave code m) (set_k_cache ca' k)).
  { destruct Hv as [->|[x ->]]; [exact Hf|]. apply view_to; [exact Hf|exact Hc|apply left_holding]. }
  destruct Hv' as [A R]. split; [exact A|].
  pose proof (r_used _ _ _ _ _ _ _ _ _ _ _ _ _ _ _ _ _ _ R) as U. cbn [k_cache set_k_cache] in U. subst ca'.
  change (set_k_cache (l1 ++ mkCe code a dl 0 :: l2) k) with (set_k_cache (l1 ++ mkCe code a dl 0 :: l2) (set_k_cache (l1 ++ mkCe 0 (ce_d e) (ce_dl e) (ce_layer e) :: l2) k)).
  assert (Nx : forall e', In e' l1 \/ In e' l2 -> ce_code e' <> code).
  { intros e' I Ex. assert (Iu : In (code, (v code (ce_d e'), ce_dl e')) (m_held (leave code m))).
    { apply (Permutation_in _ U). apply used_In. exists e'. rewrite Ex. split; [|auto]. apply in_app_iff. destruct I; [now left|right; now right]. }
    unfold leave, forget in Iu. cbn [m_held with_held with_seats] in Iu. apply filter_In in Iu as [_ Iu]. cbn [fst] in Iu. rewrite N.eqb_refl in Iu. discriminate. }
  assert (Es : map ce_code (k_cache k) = m_seats m) by (destruct H as [_ []]; assumption).
  change (seated code (forget code m)) with (with_seats (take_seat code (m_seats m)) (leave code m)).
  change (m_held (forget code m)) with (m_held (leave code m)).
  apply (rest_cache c pe v _ 0%N code (leave code m)); [exact R| | | | | |].
  - unfold take_seat. assert (existsb (N.eqb code) (m_seats m) = true) as ->.
    { apply existsb_exists. exists code. split; [|apply N.eqb_refl]. rewrite <- Es, E1, map_app. apply in_app_iff. right. now left. }
    rewrite <- Es, E1, !map_app. cbn [map ce_code]. now rewrite Ee.
  - intros Sw e' I Hz. apply in_app_iff in I.
    assert (Ol : In e' l1 \/ In e' l2 -> ce_layer e' = if (ce_code e' =? code)%N then 0 else mark (v (ce_code e') (ce_d e'))).
    { intros Io. rewrite (r_marks _ _ _ _ _ _ _ _ _ _ _ _ _ _ _ _ _ _ R Sw e'); [|apply in_app_iff; destruct Io; [now left|right; now right]|exact Hz].
      destruct (N.eqb_spec (ce_code e') 0); [contradiction|]. destruct (N.eqb_spec (ce_code e') code); [now elim (Nx e' Io)|reflexivity]. }
    destruct I as [I|[<-|I]]; [apply Ol; now left|cbn [ce_code ce_layer]; now rewrite N.eqb_refl|apply Ol; now right].
  - rewrite used_app in *. unfold used at 2 in U. cbn [filter ce_code N.eqb negb] in U. unfold used at 2. cbn [filter ce_code].
    destruct (N.eqb_spec code 0); [contradiction|]. cbn [negb map ce_code ce_d ce_dl]. apply Permutation_sym, Permutation_cons_app, Permutation_sym. exact U.
  - cbn [map fst]. constructor; [|exact (r_nodup _ _ _ _ _ _ _ _ _ _ _ _ _ _ _ _ _ _ R)].
    intros I. apply in_map_iff in I as (h & Eh & Ih). apply filter_In in Ih as [_ Ih]. rewrite Eh, N.eqb_refl in Ih. discriminate.
  - pose proof (r_size _ _ _ _ _ _ _ _ _ _ _ _ _ _ _ _ _ _ R) as Sz. cbn [k_cache set_k_cache] in Sz. rewrite app_length in *. exact Sz.
  - intros h [<-|Ih]; [exact Sv|exact (r_held _ _ _ _ _ _ _ _ _ _ _ _ _ _ _ _ _ _ R h Ih)].
Qed.

Lemma verdict_ok w e : w_code w <> 0%N -> (forall x, In x (w_queue w) -> ev_code x <> 0%N) -> passes w e = false ->
  pending_action (pend_of (extend w e)) (ev_code e) (ev_pressed e) (ev_time e) = match verdict w e with Some d => d | None => DNone end.
Proof.
  intros Hw Hq Np. unfold pending_action, verdict. rewrite (N.eqb_sym (ev_code e) 0) in *.
  assert (F : w_code (extend w e) = w_code w /\ w_due (extend w e) = w_due w /\ w_rule (extend w e) = w_rule w /\ w_tap (extend w e) = w_tap w
    /\ w_hold (extend w e) = w_hold w) by (unfold extend; destruct (ev_code e =? 0)%N; repeat split).
  destruct F as (F1 & F2 & F3 & F4 & F5). cbn [pend_of p_expire p_a2 p_a1 p_code p_beh p_queue]. rewrite F1, F2, F3, F4, F5.
  destruct (_ <=? _)%Z; [reflexivity|]. rewrite (N.eqb_sym 0 (ev_code e)). unfold passes in Np. unfold extend.
  destruct (N.eqb_spec (ev_code e) 0) as [Ez|Hz]; cbn [negb andb] in *.
  - rewrite Ez. destruct (N.eqb_spec 0 (w_code w)); [congruence|]. destruct (w_rule w); cbn [beh]; try reflexivity.
    destruct (ev_pressed e); cbn [negb andb]; [reflexivity|]. replace (existsb _ (w_queue w)) with false; [reflexivity|].
    symmetry. apply not_true_iff_false. rewrite existsb_exists. intros (x & Hx & Ex). apply N.eqb_eq in Ex. now apply (Hq x Hx).
  - destruct (N.eqb_spec (ev_code e) (w_code w)) as [Ew|Nw]; [reflexivity|]. cbn [negb] in Np. cbn [w_queue].
    rewrite existsb_app. cbn [existsb]. rewrite N.eqb_refl. cbn [orb]. rewrite orb_true_r.
    destruct (w_rule w), (ev_pressed e); cbn [beh negb andb]; reflexivity.
Qed.

(* ---- events struck again -------------------------------------------------------------------- *)
Definition safe (s : whole) : Prop := forall l, given l = [] -> length (m_shots (x_m (fold_left act l s))) < 200.
Lemma given_app a b : given (a ++ b) = given a ++ given b.
Proof. apply flat_map_app. Qed.
Lemma safe_more s l : given l = [] -> safe s -> safe (fold_left act l s).
Proof. intros Hl H l' Hl'. rewrite <- fold_left_app. apply H. now rewrite given_app, Hl. Qed.
Lemma safe_now s : safe s -> length (m_shots (x_m s)) < 200.
Proof. intros H. exact (H [] eq_refl). Qed.

Definition one_event (fuel : nat) : Prop := forall s k e k' t, W s k -> touches e -> length (m_shots (x_m s)) < 200 -> safe (feed e s) ->
  process_event fuel k (ev_code e) (ev_pressed e) (ev_time e) = Ok (k', t) ->
  exists l, given l = [] /\ W (fold_left act l (feed e s)) k' /\ x_todo (fold_left act l (feed e s)) = x_todo s.
Lemma replay fuel : one_event fuel -> forall n s k evs todo timeout ts k' t, W s k -> x_todo s = evs ++ todo -> safe s ->
  pe_loop (process_event fuel) n k evs timeout ts = Ok (k', t) ->
  exists l, given l = [] /\ W (fold_left act l s) k' /\ x_todo (fold_left act l s) = todo.
Proof.
  intros P. induction n as [|n IH]; intros s k evs todo timeout ts k' t H Et Sf E; destruct evs as [|e evs]; cbn [pe_loop] in E; try discriminate.
  - apply Ok_inj in E. injection E as <- _. exists []. auto.
  - apply Ok_inj in E. injection E as <- _. exists []. auto.
  - destruct (_ && _) eqn:C.
    + bstep E k1 E1. destruct k1 as [k1 t1]. apply andb_true_iff in C as [_ C].
      assert (Ea : act s (Pass ts) = feed (mkKev 0 false ts) s) by (unfold SpecWait.act; rewrite Et; cbn [app]; now rewrite C).
      pose proof (safe_more s [Pass ts] eq_refl Sf) as S1. cbn [fold_left] in S1. rewrite Ea in S1.
      destruct (P s k (mkKev 0 false ts) k1 t1 H (or_intror eq_refl) (safe_now s Sf) S1 E1) as (l1 & G1 & W1 & T1). rewrite <- Ea in *.
      destruct (IH (fold_left act l1 (act s (Pass ts))) k1 (e :: evs) todo t1 (ts + t1)%Z k' t W1 (eq_trans T1 Et) (safe_more _ _ G1 S1) E) as (l2 & G2 & W2 & T2).
      exists (Pass ts :: l1 ++ l2). cbn [fold_left]. rewrite fold_left_app. split; [|auto]. change (given (l1 ++ l2) = []). now rewrite given_app, G1.
    + bstep E k1 E1. destruct k1 as [k1 t1]. set (s0 := Whole (x_m s) (x_wait s) (evs ++ todo)).
      assert (Ea : act s Next = feed e s0) by (unfold SpecWait.act; rewrite Et; reflexivity).
      pose proof (safe_more s [Next] eq_refl Sf) as S1. cbn [fold_left] in S1. rewrite Ea in S1.
      assert (H0 : W s0 k /\ touches e).
      { destruct H as [H1 H2]. rewrite Et in H2. cbn [app] in H2. split; [split; [exact H1|]|]; [intros x Hx; apply H2; now right|apply H2; now left]. }
      destruct H0 as [H0 Te]. destruct (P s0 k e k1 t1 H0 Te (safe_now s Sf) S1 E1) as (l1 & G1 & W1 & T1). rewrite <- Ea in *.
      destruct (IH (fold_left act l1 (act s Next)) k1 evs todo t1 (ev_time e + t1)%Z k' t W1 T1 (safe_more _ _ G1 S1) E) as (l2 & G2 & W2 & T2).
      exists (Next :: l1 ++ l2). cbn [fold_left]. rewrite fold_left_app. split; [|auto]. change (given (l1 ++ l2) = []). now rewrite given_app, G1.
Qed.

(* ---- an event while a key waits --------------------------------------------------------------- *)
Lemma pend_code w e : p_code (pend_of (extend w e)) = w_code w /\ p_dl (pend_of (extend w e)) = w_layer w /\ p_queue (pend_of (extend w e)) = w_queue (extend w e).
Proof. unfold extend. destruct (_ =? _)%N; repeat split. Qed.
Lemma decide fuel s w k e k' b : one_event fuel -> x_wait s = Some w -> Si (unchorded_fringe (pend_of w)) (x_m s) k -> okw (unchorded_fringe (pend_of w)) (x_m s) (Some w) ->
  (forall x, In x (x_todo s) -> touches x) -> touches e -> length (m_shots (x_m s)) < 200 -> safe (feed e s) ->
  handle_pending_key (fun k evs => pe_loop (process_event fuel) fuel k evs 0 0) k (ev_code e) (ev_pressed e) (ev_time e) = Ok (k', b) ->
  b = negb (passes w e) /\ if b then exists l, given l = [] /\ W (fold_left act l (feed e s)) k' /\ x_todo (fold_left act l (feed e s)) = x_todo s else k' = k.
Proof.
  intros P Ew H (_ & (d0 & Ho & Ld) & [Hw Hch] & G1 & G2 & Hr & Hs & Hq) Td Te L Sf E.
  unfold handle_pending_key in E. rewrite (r_pend _ _ _ _ _ _ _ _ _ _ _ _ _ _ _ _ _ _ (proj2 H)) in E. cbn [f_pend unchorded_fringe p_code p_queue pend_of] in E.
  destruct (N.eqb_spec (w_code w) 0); [contradiction|]. destruct (negb (ev_code e =? 0)%N && negb (Nat.ltb _ _)); [discriminate|].
  change (negb (ev_code e =? 0)%N && negb (ev_pressed e) && negb (existsb (fun e0 => (ev_code e0 =? ev_code e)%N) (w_queue w)) && negb (ev_code e =? w_code w)%N) with (passes w e) in E.
  destruct (passes w e) eqn:Ps.
  { apply Ok_inj in E. injection E as <- <-. auto. }
  cbv zeta in E. assert (Ex : (if (ev_code e =? 0)%N then pend_of w else set_p_queue (w_queue w ++ [mkKev (ev_code e) (ev_pressed e) (ev_time e)]) (pend_of w)) = pend_of (extend w e)).
  { unfold extend. destruct (ev_code e =? 0)%N; [reflexivity|]. destruct e. reflexivity. }
  fold (pend_of w) in E. rewrite Ex in E. clear Ex.
  assert (Hqz : forall x, In x (w_queue w) -> ev_code x <> 0%N) by (intros x Hx; apply (Hq x Hx)).
  rewrite (verdict_ok w e Hw Hqz Ps) in E. destruct (pend_code w e) as (Q1 & Q2 & Q3).
  assert (Hqe : forall x, In x (w_queue (extend w e)) -> physical (ev_code x)).
  { unfold extend. destruct (N.eqb_spec (ev_code e) 0) as [Ez|Hz]; [exact Hq|]. cbn [w_queue]. intros x Hx. apply in_app_or in Hx as [Hx|[<-|[]]]; [now apply Hq|].
    destruct Te as [Te|Te]; [exact Te|contradiction]. }
  assert (Ext : W (Whole (x_m s) (Some (extend w e)) (x_todo s)) (set_k_pend (pend_of (extend w e)) k)).
  { split; [|exact Td]. exists (unchorded_fringe (pend_of (extend w e))). split; [exact (S_pend _ _ _ _ H)|].
    assert (F : w_code (extend w e) = w_code w /\ w_layer (extend w e) = w_layer w /\ w_tap (extend w e) = w_tap w /\ w_hold (extend w e) = w_hold w)
      by (unfold extend; destruct (_ =? _)%N; repeat split).
    destruct F as (F1 & F2 & F3 & F4). cbn [okw x_m x_wait]. rewrite F1, F2, F3, F4. split; [reflexivity|]. split; [now exists d0|]. split; [split; assumption|]. auto 8. }
  unfold SpecWait.feed in Sf |- *. rewrite Ew, Ps in Sf |- *.
  assert (Wait : forall k2, Ok (set_k_pend (pend_of (extend w e)) k, true) = Ok (k2, b) -> k2 = k' -> b = negb false /\ if b then
     exists l, given l = [] /\ W (fold_left act l (Whole (x_m s) (Some (extend w e)) (x_todo s))) k' /\ x_todo (fold_left act l (Whole (x_m s) (Some (extend w e)) (x_todo s))) = x_todo s else k' = k).
  { intros k2 X Y. apply Ok_inj in X. injection X as X1 X2. subst k2 b k'. split; [reflexivity|]. exists []. auto. }
  assert (Gv : forall d, verdict w e = Some d -> general_action c d).
  { unfold verdict. intros d X. destruct (_ <=? _)%Z; [injection X as <-; assumption|]. destruct (ev_code e =? 0)%N; [discriminate X|].
    destruct (ev_code e =? w_code w)%N; [injection X as <-; assumption|].
    destruct (w_rule w), (ev_pressed e); try discriminate X; injection X as <-; assumption. }
  destruct (verdict w e) as [d|] eqn:Vd; [|cbn [has_op] in E; exact (Wait k' E eq_refl)]. specialize (Gv d eq_refl).
  destruct (has_op d) eqn:Hop.
  2:{ assert (d = DNone) as -> by (destruct d; first [reflexivity|discriminate Hop]). exact (Wait k' E eq_refl). }
  clear Wait Ext. rewrite Q1, Q2, Q3 in E.
  set (m1 := forget (w_code w) (x_m s)) in *. set (d' := settle c d (ev_time e) m1) in *.
  assert (Fd : match d with DNone => Whole (x_m s) (Some (extend w e)) (x_todo s)
     | _ => let d1 := d' in Whole (begin_key c (w_code w) d1 (w_layer w) (ev_time e) m1) (waits c (w_code w) d1 (w_layer w) (ev_time e)) (w_queue (extend w e) ++ x_todo s) end
     = Whole (begin_key c (w_code w) d' (w_layer w) (ev_time e) m1) (waits c (w_code w) d' (w_layer w) (ev_time e)) (w_queue (extend w e) ++ x_todo s))
    by (destruct d; first [reflexivity|discriminate Hop]).
  cbv zeta in Fd, Sf |- *. fold m1 in Fd, Sf |- *. fold d' in Fd, Sf |- *. rewrite Fd in Sf |- *. clear Fd.
  set (idle0 := set_p_code 0 (set_p_queue [] (pend_of (extend w e)))) in *.
  pose proof (S_pend _ idle0 _ _ H) as Hi. set (k1 := set_k_pend idle0 k) in *. clearbody k1. set (idle := with_pend idle0 (unchorded_fringe (pend_of w))) in *.
  destruct (swap_cache idle (x_m s) k1 (w_code w) d0 (w_layer w) d (w_layer w) Hi Hw Ho Ld) as (ca & ca' & X1 & X2 & X3).
  rewrite X1 in E. bstep E k3 E3. bstep E k4 E4. destruct k4 as [k4 t4]. apply Ok_inj in E. injection E as E1 E2. subst k' b. split; [reflexivity|].
  change (set_k_cache ca k1) with (set_k_cache ca (set_k_cache ca' k1)) in E3, X3. fold m1 in X2, X3.
  assert (R1 : m_repeat m1 = None) by exact Hr.
  assert (H3 : Si (put_off c idle (w_code w) d' (w_layer w) (ev_time e)) (begin_key c (w_code w) d' (w_layer w) (ev_time e) m1) k3).
  { apply (begin_sim c idle m1 (set_k_cache ca' k1) ca _ _ _ _ _ (rise (w_code w) (m_seats (x_m s)))); try assumption. intros v Hv Sv. split; [|now apply X3].
    destruct Hv as [->|[x ->]]; [exact X2|]. apply view_to; [exact X2|exact Hw|apply left_holding]. }
  assert (W3 : W (Whole (begin_key c (w_code w) d' (w_layer w) (ev_time e) m1) (waits c (w_code w) d' (w_layer w) (ev_time e)) (w_queue (extend w e) ++ x_todo s)) k3).
  { split; [|cbn [x_todo]; intros x Hx; apply in_app_or in Hx as [Hx|Hx]; [left; now apply Hqe|now apply Td]]. cbn [x_m x_wait]. eexists. split; [exact H3|].
    apply begun_okw; try assumption; try reflexivity; [split; assumption|]. unfold d'. now apply settle_settled. }
  apply (replay fuel P _ _ _ _ _ _ _ _ _ W3 eq_refl Sf E4).
Qed.
Lemma all_events : forall fuel, one_event fuel.
Proof.
  induction fuel as [|fuel IH]; intros s k e k' t H Te L Sf E; [discriminate|].
  destruct H as [(pe & H & Ok_) Td]. destruct (x_wait s) as [w|] eqn:Ew.
  - pose proof Ok_ as Ok2. destruct Ok2 as [Epe _]. subst pe. pose proof (chords_idle c (unchorded_fringe (pend_of w)) (x_m s) k eq_refl (proj1 Gc) H) as Ca.
    cbn [process_event] in E. unfold process_event_F in E.
    rewrite handle_chord_idle in E; [|apply Ca|apply aloof_unchorded, calm_aloof, Ca]. cbn [bind] in E.
    apply (seen_S c (unchorded_fringe (pend_of w)) idv (x_m s) k (ev_code e) (ev_pressed e) (ev_time e) eq_refl) in H. set (k0 := chord_seen _ _ _ _) in *. clearbody k0.
    bstep E k2 E2. destruct k2 as [k2 b]. destruct (decide fuel s w k0 e k2 b IH Ew H Ok_ Td Te L Sf E2) as [Eb D].
    destruct b.
    + apply Ok_inj in E. unfold calculate_main_loop_timeout in E. injection E as E _. subst k'. destruct D as (l & D1 & D2 & D3). exists l. split; [exact D1|].
      split; [|exact D3]. destruct D2 as [(pe & D2 & D4) D5]. split; [|exact D5]. exists pe. split; [now apply S_timeouts|exact D4].
    + subst k2. symmetry in Eb. apply negb_false_iff in Eb. bstep E k3 E3. bstep E k4 E4. bstep E k5 E5. apply Ok_inj in E.
      unfold calculate_main_loop_timeout in E. injection E as E _. subst k'.
      pose proof (step_sim c (unchorded_fringe (pend_of w)) (x_m s) k0 e k3 k4 k5 (proj1 (proj2 Gc)) H Te L E3 E4 E5) as H5.
      exists []. cbn [fold_left]. unfold SpecWait.feed. rewrite Ew, Eb. split; [reflexivity|]. split; [|reflexivity]. split; [|exact Td]. cbn [x_m x_wait].
      exists (unchorded_fringe (pend_of w)). split; [|now apply passes_okw]. apply S_timeouts.
      assert (Rp : ev_pressed e = false). { unfold passes in Eb. rewrite !andb_true_iff, !negb_true_iff in Eb. apply Eb. }
      unfold put_off_by, put_off_as in H5. rewrite Rp in H5. exact H5.
  - exists []. split; [reflexivity|]. cbn [fold_left]. destruct Ok_ as (P1 & P2 & P3). split; [now apply (feed_idle (S fuel) s k e k' t pe)|].
    unfold SpecWait.feed. now rewrite Ew.
Qed.

(* ---- runs ---------------------------------------------------------------------------------------- *)
Lemma outside_W s k k' : W s k -> outside k k' -> W s k'.
Proof. intros [(pe & H & O) T] Ou. split; [|exact T]. exists pe. split; [now apply (outside_sim c pe _ k)|exact O]. Qed.
Lemma wait_runs clk evs k : (dawn c <= clk)%Z -> calls_of c clk evs k -> (forall e, In e evs -> touches e) ->
  (forall l rest, given l ++ rest = evs -> length (m_shots (x_m (turns c l))) < 200) ->
  exists l, given l = evs /\ x_todo (turns c l) = [] /\ W (turns c l) k.
Proof.
  intros Hk H. induction H as [|evs k fuel e k' t H IH E|evs k k' H IH Ou]; intros Te L.
  - exists []. split; [reflexivity|]. split; [reflexivity|]. split; [|intros x []]. exists (unchorded_fringe (k_pend (new_keyboard c clk))). split; [now apply start_sim|repeat split].
  - destruct IH as (l & G & T & Wl).
    { intros x Hx. apply Te. apply in_or_app. now left. }
    { intros l rest El. apply (L l (rest ++ [e])). now rewrite app_assoc, El. }
    assert (Ea : act (turns c l) (Given e) = feed e (turns c l)) by (unfold SpecWait.act; now rewrite T).
    assert (Sf : safe (feed e (turns c l))).
    { intros l' Gl'. rewrite <- Ea. specialize (L (l ++ Given e :: l') []). unfold turns in L |- *. rewrite fold_left_app in L. apply L.
      rewrite given_app, G. change (given (Given e :: l')) with (e :: given l'). rewrite Gl'. now rewrite app_nil_r. }
    destruct (all_events fuel (turns c l) k e k' t Wl) as (l2 & G2 & W2 & T2); try assumption.
    { apply Te. apply in_or_app. right. now left. }
    { apply (L l [e]). now rewrite G. }
    rewrite <- Ea in *. exists (l ++ Given e :: l2). unfold turns in *. rewrite fold_left_app. cbn [fold_left].
    split; [|split; [now rewrite T2|exact W2]]. rewrite given_app, G. change (given (Given e :: l2)) with (e :: given l2). now rewrite G2.
  - destruct (IH Te L) as (l & G & T & Wl). exists l. split; [exact G|]. split; [exact T|]. now apply (outside_W _ k).
Qed.
(* no oneshot keys: no bound *)
Lemma shotless_feed e s : no_oneshots c -> shotless (x_m s) -> (forall w, x_wait s = Some w -> ~ oneshot_action (w_tap w) /\ ~ oneshot_action (w_hold w)) ->
  shotless (x_m (feed e s)) /\ (forall w, x_wait (feed e s) = Some w -> ~ oneshot_action (w_tap w) /\ ~ oneshot_action (w_hold w)).
Proof.
  intros Nc [S1 S2] Hw. pose proof Nc as [N1 N2].
  assert (Wt : forall code d dl t w, waits c code d dl t = Some w -> ~ oneshot_action (w_tap w) /\ ~ oneshot_action (w_hold w)).
  { intros code d dl t w. destruct d; cbn [waits]; intros X; try discriminate X; injection X as <-; cbn [w_tap w_hold]; split; try apply N2; intros []. }
  unfold SpecWait.feed. destruct (x_wait s) as [w|] eqn:Ew.
  - destruct (Hw w eq_refl) as [H1 H2]. destruct (passes w e); [cbn [x_m x_wait]; split; [now apply shotless_step|intros w0 X; injection X as <-; auto]|].
    assert (Ext : ~ oneshot_action (w_tap (extend w e)) /\ ~ oneshot_action (w_hold (extend w e))) by (unfold extend; destruct (_ =? _)%N; auto).
    assert (Gv : forall d, verdict w e = Some d -> ~ oneshot_action d).
    { unfold verdict. intros d X. destruct (_ <=? _)%Z; [injection X as <-; assumption|]. destruct (ev_code e =? 0)%N; [discriminate X|].
    destruct (ev_code e =? w_code w)%N; [injection X as <-; assumption|].
    destruct (w_rule w), (ev_pressed e); try discriminate X; injection X as <-; assumption. }
    destruct (verdict w e) as [d|]; [|cbn [x_m x_wait]; split; [split; assumption|intros w0 X; injection X as <-; auto]].
    specialize (Gv d eq_refl). set (m1 := forget (w_code w) (x_m s)). set (d' := settle c d (ev_time e) m1).
    set (s' := Whole (begin_key c (w_code w) d' (w_layer w) (ev_time e) m1) (waits c (w_code w) d' (w_layer w) (ev_time e)) (w_queue (extend w e) ++ x_todo s)).
    assert (D : shotless (x_m s') /\ (forall w0, x_wait s' = Some w0 -> ~ oneshot_action (w_tap w0) /\ ~ oneshot_action (w_hold w0))).
    { unfold s'. cbn [x_m x_wait]. split; [|intros w0; apply Wt]. apply shotless_begin; [now apply shotless_settle|exact S1|].
      intros h Hh. apply S2. unfold m1, forget in Hh. cbn [m_held with_held] in Hh. now apply filter_In in Hh. }
    destruct d; try exact D. cbn [x_m x_wait]. split; [split; assumption|]. intros w0 X. injection X as <-. auto.
  - cbn [x_m x_wait]. split; [now apply shotless_step|]. intros w. unfold begins. destruct (_ =? _)%N; [discriminate|].
    destruct (ev_pressed e); [|discriminate]. destruct (holding _ _); [discriminate|]. destruct (Nat.ltb _ _); [|discriminate]. destruct (choose _ _ _). apply Wt.
Qed.
Lemma shotless_turns l : no_oneshots c -> m_shots (x_m (turns c l)) = [].
Proof.
  intros Nc. enough (X : shotless (x_m (turns c l)) /\ (forall w, x_wait (turns c l) = Some w -> ~ oneshot_action (w_tap w) /\ ~ oneshot_action (w_hold w))) by apply X.
  unfold turns. induction l as [|i l IH] using rev_ind; [split; [split; [reflexivity|intros h []]|discriminate]|].
  rewrite fold_left_app. cbn [fold_left]. set (s := fold_left act l (start c)) in *. clearbody s. unfold SpecWait.act. destruct IH as [I1 I2].
  destruct i as [e| |t]; destruct (x_todo s) as [|e0 r]; try (split; assumption); try (apply shotless_feed; assumption).
  destruct (_ <=? _)%Z; [apply shotless_feed; assumption|split; assumption].
Qed.
End Wait.
