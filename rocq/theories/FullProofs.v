(* Proofs for C77. *)
From Verif Require Import Base Lib Keys Types MacroExec Kbd Config Steps Hist SpecMods SpecLookup SpecDefer Outside ModsProofs LookupProofs
  ClassInv StepProofs Engine OneProofs Inv DeferProofs SpecRef RefProofs RefSteps RefRun SpecWait WaitProofs SpecFull.
From Coq Require Import Permutation Sorting.Sorted.
Local Open Scope list_scope.
Local Open Scope nat_scope.

Section Full.
Variable c : config.
Notation Si pe := (S_ c pe idv).
Notation act := (act_all c).
Notation feed := (feed_all c).

(* ---- which chord was struck ------------------------------------------------------------------ *)
Lemma presses_spec keys q : forall n, chord_presses keys q n =
  if forallb (fun x => existsb (N.eqb x) keys) (pressed_of q) then Some (n + length (pressed_of q)) else None.
Proof.
  unfold pressed_of. induction q as [|e q IH]; intros n; cbn [chord_presses filter map forallb length]; [f_equal; lia|].
  destruct (ev_pressed e); [|apply IH]. cbn [map forallb length]. unfold in_keys. destruct (existsb _ keys); cbn [andb]; [|reflexivity].
  rewrite IH. destruct (forallb _ _); [f_equal; lia|reflexivity].
Qed.
Lemma match_spec q ch : chord_event_match ch q = if complete q ch then Kbd.Full else if begun q ch then Partial else NoMatch.
Proof.
  unfold chord_event_match, complete, begun, of_chord. rewrite presses_spec. destruct (pressed_of q) as [|x l] eqn:E; [reflexivity|].
  destruct (forallb _ (x :: l)); cbn [andb length Nat.add]; [|reflexivity]. destruct (Nat.eqb _ _); reflexivity.
Qed.
Fixpoint last_at (q : list kev) (a : nat) (l : list chord) : option nat :=
  match l with
  | [] => None
  | ch :: r => match last_at q (S a) r with Some i => Some i | None => if complete q ch then Some a else None end
  end.
Lemma last_at_none q : forall l a, last_at q a l = None -> existsb (complete q) l = false.
Proof.
  induction l as [|ch l IH]; intros a; cbn [last_at existsb]; [reflexivity|]. destruct (last_at q (S a) l) eqn:E; [discriminate|].
  destruct (complete q ch); [discriminate|]. intros _. cbn [orb]. exact (IH _ E).
Qed.
Lemma find_app {A} (f : A -> bool) l l' : find f (l ++ l') = match find f l with Some x => Some x | None => find f l' end.
Proof. induction l as [|x l IH]; cbn [app find]; [reflexivity|]. destruct (f x); [reflexivity|exact IH]. Qed.
Lemma last_at_some q : forall l a i, last_at q a l = Some i -> a <= i /\ i - a < length l /\ existsb (complete q) l = true /\ find (complete q) (rev l) = Some (nth (i - a) l zero_chord).
Proof.
  induction l as [|ch l IH]; intros a i; cbn [last_at existsb]; [discriminate|]. cbn [rev]. rewrite find_app. destruct (last_at q (S a) l) eqn:E.
  - intros X. injection X as ->. destruct (IH _ _ E) as (H1 & H2 & H3 & H4). rewrite H3, H4, orb_true_r. split; [lia|]. cbn [length]. split; [lia|]. split; [reflexivity|].
    replace (i - a) with (S (i - S a)) by lia. reflexivity.
  - pose proof (last_at_none _ _ _ E) as Nl. destruct (complete q ch) eqn:C; [|discriminate]. intros X. injection X as <-. rewrite Nat.sub_diag. cbn [length nth orb find].
    split; [lia|]. split; [lia|]. split; [reflexivity|]. rewrite C.
    destruct (find (complete q) (rev l)) as [x|] eqn:F; [|reflexivity]. exfalso. apply find_some in F as [F1 F2]. apply in_rev in F1.
    assert (existsb (complete q) l = true) by (apply existsb_exists; eauto). congruence.
Qed.
Lemma inner_fold q ts li : forall l a b mx pt,
  fold_left (check_chord1 q ts li) (combine (seq a (length l)) l) (b, mx, pt) =
  match last_at q a l with
  | Some ci => if (mx <=? ts)%Z then (Some (li, ci), ts, pt || existsb (begun q) l) else (b, mx, pt || existsb (begun q) l)
  | None => (b, mx, pt || existsb (begun q) l)
  end.
Proof.
  induction l as [|ch l IH]; intros a b mx pt; cbn [length seq combine fold_left last_at existsb]; [now rewrite orb_false_r|].
  unfold check_chord1 at 2. rewrite match_spec. destruct (complete q ch) eqn:C.
  - assert (B : begun q ch = false).
    { unfold complete, begun in *. apply andb_true_iff in C as [_ ->]. cbn [negb]. now rewrite andb_false_r. }
    rewrite B. cbn [orb]. destruct (mx <=? ts)%Z eqn:L; rewrite IH; [rewrite Z.leb_refl|rewrite L]; destruct (last_at q (S a) l); reflexivity.
  - destruct (begun q ch) eqn:B; rewrite IH; cbn [orb]; rewrite ?orb_true_l; destruct (last_at q (S a) l); try reflexivity; destruct (mx <=? ts)%Z; rewrite ?orb_true_r; reflexivity.
Qed.
Section Outer.
Variable q : list kev.
Variable on : nat -> bool.
Variable t : nat -> Z.
Variable chs : nat -> list chord.
Definition outer1 (acc : cmacc) (i : nat) : cmacc :=
  if on i then fold_left (check_chord1 q (t i) i) (combine (seq 0 (length (chs i))) (chs i)) acc else acc.
Definition cand (i : nat) : bool := on i && existsb (complete q) (chs i).
Hypothesis pos : forall i, (0 <= t i)%Z.
Lemma outer_fold n : exists b mx, fold_left outer1 (seq 0 n) (None, (-1)%Z, false) = (b, mx, existsb (fun i => on i && existsb (begun q) (chs i)) (seq 0 n))
  /\ match b with
     | None => mx = (-1)%Z /\ forall j, j < n -> cand j = false
     | Some (i, ci) => i < n /\ cand i = true /\ mx = t i /\ last_at q 0 (chs i) = Some ci /\ forall j, j < n -> cand j = true -> (t j < t i)%Z \/ (t j = t i /\ j <= i)
     end.
Proof.
  induction n as [|n IH].
  - exists None, (-1)%Z. split; [reflexivity|]. split; [reflexivity|]. intros j Hj. lia.
  - destruct IH as (b & mx & E & H). rewrite seq_S, fold_left_app, E, existsb_app. cbn [fold_left existsb Nat.add]. rewrite orb_false_r. set (pt := existsb _ (seq 0 n)). clearbody pt.
    unfold outer1. destruct (on n) eqn:On; [rewrite inner_fold; destruct (last_at q 0 (chs n)) as [ci|] eqn:La|].
    + destruct (last_at_some _ _ _ _ La) as (_ & _ & La3 & _). assert (Cn : cand n = true) by (unfold cand; now rewrite On).
      destruct (mx <=? t n)%Z eqn:L.
      * apply Z.leb_le in L. exists (Some (n, ci)), (t n). split; [reflexivity|]. split; [lia|]. split; [exact Cn|]. split; [reflexivity|]. split; [exact La|].
        intros j Hj Cj. destruct (Nat.eq_dec j n) as [->|]; [right; split; [reflexivity|lia]|]. destruct b as [[i c0]|].
        -- destruct H as (_ & _ & Em & _ & H). specialize (H j ltac:(lia) Cj). lia.
        -- destruct H as [_ H]. rewrite H in Cj by lia. discriminate.
      * apply Z.leb_gt in L. exists b, mx. split; [reflexivity|]. destruct b as [[i c0]|]; [|destruct H as [-> _]; specialize (pos n); lia].
        destruct H as (H1 & H2 & H3 & H4 & H5). split; [lia|]. split; [exact H2|]. split; [exact H3|]. split; [exact H4|].
        intros j Hj Cj. destruct (Nat.eq_dec j n) as [->|]; [left; lia|]. apply H5; [lia|exact Cj].
    + apply last_at_none in La. assert (Cn : cand n = false) by (unfold cand; now rewrite La, andb_false_r).
      exists b, mx. split; [reflexivity|]. destruct b as [[i c0]|].
      * destruct H as (H1 & H2 & H3 & H4 & H5). split; [lia|]. split; [exact H2|]. split; [exact H3|]. split; [exact H4|].
        intros j Hj Cj. destruct (Nat.eq_dec j n) as [->|]; [congruence|]. apply H5; [lia|exact Cj].
      * destruct H as [H1 H2]. split; [exact H1|]. intros j Hj. destruct (Nat.eq_dec j n) as [->|]; [exact Cn|]. apply H2. lia.
    + assert (Cn : cand n = false) by (unfold cand; now rewrite On). cbn [andb]. rewrite orb_false_r.
      exists b, mx. split; [reflexivity|]. destruct b as [[i c0]|].
      * destruct H as (H1 & H2 & H3 & H4 & H5). split; [lia|]. split; [exact H2|]. split; [exact H3|]. split; [exact H4|].
        intros j Hj Cj. destruct (Nat.eq_dec j n) as [->|]; [congruence|]. apply H5; [lia|exact Cj].
      * destruct H as [H1 H2]. split; [exact H1|]. intros j Hj. destruct (Nat.eq_dec j n) as [->|]; [exact Cn|]. apply H2. lia.
Qed.
End Outer.
(* the first of the order is the newest *)
Lemma newest pe m k (f : nat -> bool) : Si pe m k ->
  match find (fun i => lit m i && f i) (order m) with
  | Some i => lit m i = true /\ f i = true /\ forall j, lit m j = true -> f j = true ->
      (l_time (k_ls k j) < l_time (k_ls k i))%Z \/ (l_time (k_ls k j) = l_time (k_ls k i) /\ j <= i)
  | None => forall j, lit m j = true -> f j = false
  end.
Proof.
  intros H.
  assert (Or : forall j, lit m j = true -> In j (order m)).
  { intros j Lj. unfold order. rewrite lit_count, Nat.ltb_lt in Lj. apply (r_on _ _ _ _ _ _ _ _ _ _ _ _ _ _ _ _ _ _ (proj2 H)) in Lj.
    apply in_or_app. destruct Lj as [Lj|[-> | -> ]]; [now left|right; now left|right; right; now left]. }
  destruct (find (fun i => lit m i && f i) (order m)) as [i|] eqn:F.
  - apply find_first in F as (l1 & l2 & El & Fi & F1). apply andb_true_iff in Fi as [Li Bi]. split; [exact Li|]. split; [exact Bi|].
    intros j Lj Bj. pose proof (Or j Lj) as Ij. rewrite El in Ij.
    assert (N1 : ~ In j l1) by (intros Ij'; apply F1 in Ij'; rewrite Lj, Bj in Ij'; discriminate).
    apply in_app_or in Ij as [Ij|Ij]; [contradiction|]. destruct Ij as [<-|Ij]; [right; split; [reflexivity|lia]|].
    destruct H as [_ R]. unfold order in El.
    assert (O : (l_time (k_ls k j) < l_time (k_ls k i))%Z \/ j = i \/ ((l_time (k_ls k j) <= l_time (k_ls k i))%Z /\ j = 0)).
    { apply (order_time (fun x => l_time (k_ls k x)) (dawn c) (m_recent m) (m_layout m) l1 i l2 j).
      - apply dawn_range.
      - apply (r_sorted _ _ _ _ _ _ _ _ _ _ _ _ _ _ _ _ _ _ R).
      - intros x Hx. apply (r_recent _ _ _ _ _ _ _ _ _ _ _ _ _ _ _ _ _ _ R) in Hx. lia.
      - apply (r_old _ _ _ _ _ _ _ _ _ _ _ _ _ _ _ _ _ _ R).
      - apply (r_base _ _ _ _ _ _ _ _ _ _ _ _ _ _ _ _ _ _ R).
      - exact El.
      - exact N1.
      - exact Ij. }
    destruct O as [O|[->|[O ->]]]; [now left|right; split; [reflexivity|lia]|]. destruct (Z.eq_dec (l_time (k_ls k 0)) (l_time (k_ls k i))); [right|left]; lia.
  - intros j Lj. pose proof (find_none _ _ F j (Or j Lj)) as X. cbv beta in X. now rewrite Lj in X.
Qed.
Definition good_chord (li : nat) (ch : chord) : Prop := In ch (ly_chords (the c li)) /\ ch_keys ch <> [].
Lemma check_spec pe m k r k2 : Si pe m k -> check_chord_match k = (r, k2) ->
  r = (match best c m (h_queue (k_chord k)), more c m (h_queue (k_chord k)) with
       | None, false => CC0 | None, true => CC1 | Some _, false => CC2 | Some _, true => CC3 end)
  /\ match best c m (h_queue (k_chord k)) with
     | None => k2 = k
     | Some (ch, li) => good_chord li ch /\ exists ci, nth ci (ly_chords (the c li)) zero_chord = ch /\ k2 = set_k_chord (set_h_match (Some (li, ci)) (set_h_mlayer li (k_chord k))) k
     end.
Proof.
  intros H E. set (q := h_queue (k_chord k)) in *.
  assert (T : forall i, (0 <= l_time (k_ls k i))%Z).
  { intros i. destruct H as [_ []]. destruct (in_dec Nat.eq_dec i (m_recent m)) as [I|I]; [apply r_recent in I; pose proof (dawn_range c)|apply r_old in I]; lia. }
  pose proof (r_cfg _ _ _ _ _ _ _ _ _ _ _ _ _ _ _ _ _ _ (proj2 H)) as Ec.
  assert (Ex : forall l acc, fold_left (check_layer1 k) l acc = fold_left (outer1 q (lit m) (fun i => l_time (k_ls k i)) (fun i => ly_chords (the c i))) l acc).
  { induction l as [|i l IH]; intros acc; cbn [fold_left]; [reflexivity|]. rewrite IH. f_equal. unfold check_layer1, outer1.
    rewrite (lit_active m k (r_act _ _ _ _ _ _ _ _ _ _ _ _ _ _ _ _ _ _ (proj2 H))). unfold layer_at, the. rewrite Ec. reflexivity. }
  unfold check_chord_match in E. rewrite Ex in E. unfold nlayers in E. rewrite Ec in E.
  destruct (outer_fold q (lit m) (fun i => l_time (k_ls k i)) (fun i => ly_chords (the c i)) T (length (c_layers c))) as (b & mx & Eb & Hb).
  rewrite Eb in E. fold (layers c) in E. change (existsb _ (layers c)) with (more c m q) in E.
  pose proof (newest pe m k (fun i => existsb (complete q) (ly_chords (the c i))) H) as Nw. unfold best.
  destruct (find _ (order m)) as [i|].
  - destruct Nw as (Li & Fi & Nw).
    assert (Lt : i < length (c_layers c)). { destruct (Nat.lt_ge_cases i (length (c_layers c))) as [L|L]; [exact L|]. rewrite (the_out c i L) in Fi. discriminate. }
    destruct b as [[li ci]|]; [|destruct Hb as [_ Hb]; specialize (Hb i Lt); unfold cand in Hb; rewrite Li, Fi in Hb; discriminate].
    destruct Hb as (H1 & H2 & _ & H4 & H5). unfold cand in H2. apply andb_true_iff in H2 as [H2 H3].
    assert (Ei : li = i). { specialize (Nw li H2 H3). specialize (H5 i Lt). unfold cand in H5. rewrite Li, Fi in H5. specialize (H5 eq_refl). lia. }
    subst li. destruct (last_at_some _ _ _ _ H4) as (_ & L4 & _ & L5). rewrite Nat.sub_0_r in L4, L5. rewrite L5. cbn [option_map].
    injection E as <- <-. split; [destruct (more c m q); reflexivity|]. apply find_some in L5 as [L5 L6].
    split; [split; [apply nth_In; exact L4|]|].
    + unfold complete, of_chord in L6. apply andb_true_iff in L6 as [L6 L7]. destruct (pressed_of q); [discriminate|]. intros X. rewrite X in L7. discriminate.
    + exists ci. split; reflexivity.
  - destruct b as [[li ci]|].
    + destruct Hb as (_ & H2 & _). unfold cand in H2. apply andb_true_iff in H2 as [H2 H3]. rewrite (Nw li H2) in H3. discriminate.
    + injection E as <- <-. split; [destruct (more c m q); reflexivity|reflexivity].
Qed.

(* ---- the relation ------------------------------------------------------------------------------ *)
Definition filled (x : N) : bool := negb (x =? 0)%N.
Definition placed (p : place) (ac : achord) : Prop :=
  ac_active ac = negb (vacant p) /\ filter filled (ch_keys (ac_chord ac)) = q_keys p /\ ch_d (ac_chord ac) = q_do p /\ ac_layer ac = q_layer p.
Definition found_in (o : option (chord * nat)) (h : chst) : Prop :=
  match o with
  | None => h_match h = None
  | Some (ch, li) => exists ci, h_match h = Some (li, ci) /\ h_mlayer h = li /\ nth ci (ly_chords (the c li)) zero_chord = ch /\ good_chord li ch
  end.
Definition att (a : attempt) (h : chst) : Prop := h_queue h = a_queue a /\ h_last h = a_last a /\ found_in (a_found a) h.
Definition tried (x : trying) (h : chst) : Prop :=
  match x with
  | Calm => h_state h = CsInactive
  | Replaying => h_state h = CsResolving
  | Open a => h_state h = CsDisambiguation /\ att a h
  | Kept a => h_state h = CsHold /\ att a h /\ a_found a <> None
  end.
Definition around (x : trying) (ps : list place) (h : chst) (acs : list achord) : Prop := tried x h /\ Forall2 placed ps acs.
Definition okv (p : pend) (m : machine) (o : option waiting) : Prop :=
  match o with
  | None => p_code p = 0%N /\ p_queue p = []
  | Some w => p = pend_of w /\ (exists d, holding (w_code w) m = Some (d, w_layer w) /\ late_action c d) /\ w_code w <> 0%N
      /\ general_action c (w_tap w) /\ general_action c (w_hold w) /\ m_repeat m = None /\ m_struck m = w_code w
      /\ forall e, In e (w_queue w) -> ev_code e <> 0%N
  end.
Definition okp (ps : list place) : Prop := forall p, In p ps -> general_action c (q_do p).
Definition V (s : full) (k : kbd) : Prop :=
  exists p, Si (Fringe p (around (g_try s) (g_places s))) (g_m s) k /\ okv p (g_m s) (g_wait s) /\ okp (g_places s).

Hypothesis Gc : entire c.

Lemma S_chords p Q (Q' : chst -> list achord -> Prop) m k h acs : Si (Fringe p Q) m k -> Q' h acs -> Si (Fringe p Q') m (set_k_achords acs (set_k_chord h k)).
Proof. intros [A R] H. split; [exact A|]. destruct R. constructor; try assumption. Qed.
Lemma S_chord p Q (Q' : chst -> list achord -> Prop) m k h : Si (Fringe p Q) m k -> Q' h (k_achords k) -> Si (Fringe p Q') m (set_k_chord h k).
Proof. intros [A R] H. split; [exact A|]. destruct R. constructor; try assumption. Qed.
Lemma S_fringe p Q (Q' : chst -> list achord -> Prop) m k : Si (Fringe p Q) m k -> Q' (k_chord k) (k_achords k) -> Si (Fringe p Q') m k.
Proof. intros [A R] H. split; [exact A|]. destruct R. constructor; try assumption. Qed.
Lemma S_placed p x ps m k : Si (Fringe p (around x ps)) m k -> tried x (k_chord k) /\ Forall2 placed ps (k_achords k).
Proof. intros [_ R]. exact (r_chords _ _ _ _ _ _ _ _ _ _ _ _ _ _ _ _ _ _ R). Qed.

Lemma placed_free : placed free zero_ac.
Proof. repeat split. Qed.
Lemma placed_nth : forall ps acs i, Forall2 placed ps acs -> placed (nth i ps free) (nth i acs zero_ac).
Proof.
  intros ps acs i H. revert i. induction H as [|p ac ps acs H1 H2 IH]; intros [|i]; cbn [nth]; try apply placed_free; [exact H1|apply IH].
Qed.
Lemma placed_upd p ac : placed p ac -> forall ps acs i, Forall2 placed ps acs -> Forall2 placed (upd i p ps) (upd i ac acs).
Proof.
  intros Hp ps acs i H. revert i. induction H as [|p0 ac0 ps acs H1 H2 IH]; intros [|i]; cbn [upd]; try constructor; auto.
Qed.
Lemma picked p x ps m k code : Si (Fringe p (around x ps)) m k -> code <> 0%N -> lookup_descriptor k code = pick c ps m code.
Proof.
  intros H Hc. unfold pick. destruct (is_chord_code code) eqn:Ic.
  - unfold lookup_descriptor. rewrite Ic. unfold is_chord_code in Ic. change ((197 <=? code)%N && (code <=? 199)%N = true) in Ic. rewrite Ic.
    change K_CHORD_1 with 197%N. apply S_placed in H as [_ H]. destruct (placed_nth _ _ (N.to_nat (code - 197)) H) as (_ & _ & -> & ->). reflexivity.
  - change ((197 <=? code)%N && (code <=? 199)%N) with (is_chord_code code). rewrite Ic. eapply choose_lookup; [exact H|]. split; [assumption|]. unfold is_chord_code in Ic. rewrite andb_false_iff, !N.leb_gt in Ic. lia.
Qed.
Lemma pick_general ps m code : okp ps -> general_action c (fst (pick c ps m code)).
Proof.
  intros H. unfold pick. destruct (_ && _); [|apply choose_general, Gc]. cbn [fst].
  destruct (nth_in_or_default (N.to_nat (code - 197)) ps free) as [I|E]; [apply H, I|]. rewrite E. left. exact Logic.I.
Qed.
Lemma okp_upd i p ps : okp ps -> general_action c (q_do p) -> okp (upd i p ps).
Proof.
  intros H Hp. revert i. induction ps as [|x ps IH]; intros [|i] q; cbn [upd]; try (intros []; fail).
  - intros [<-|I]; [exact Hp|apply H; now right].
  - intros [<-|I]; [apply H; now left|]. apply IH in I; [exact I|]. intros y Hy. apply H. now right.
Qed.
Lemma find_where code : code <> 0%N -> forall ps acs, Forall2 placed ps acs -> forall i,
  chord_of_key acs code i = option_map (fun j => i + j) (place_where (holds code) ps).
Proof.
  intros Hc ps acs H. induction H as [|p ac ps acs H1 H2 IH]; intros i; cbn [chord_of_key place_where]; [reflexivity|].
  assert (E : ac_active ac && in_keys code (ch_keys (ac_chord ac)) = holds code p).
  { destruct H1 as (A & B & _ & _). unfold holds, in_keys. rewrite A, <- B. apply eq_true_iff_eq. rewrite andb_true_iff, !existsb_exists. split.
    - intros [_ (x & X1 & X2)]. exists x. split; [|exact X2]. apply filter_In. split; [exact X1|]. apply N.eqb_eq in X2. subst x. unfold filled. now apply negb_true_iff, N.eqb_neq.
    - intros (x & X1 & X2). split; [|exists x; split; [|exact X2]; now apply filter_In in X1]. unfold vacant. rewrite <- B. destruct (filter filled _); [destruct X1|reflexivity]. }
  rewrite E. destruct (holds code p); cbn [option_map]; [f_equal; lia|]. rewrite IH. destruct (place_where (holds code) ps); cbn [option_map]; [f_equal; lia|reflexivity].
Qed.
Lemma free_where : forall ps acs, Forall2 placed ps acs -> forall i, free_chord acs i = option_map (fun j => i + j) (place_where vacant ps).
Proof.
  intros ps acs H. induction H as [|p ac ps acs H1 H2 IH]; intros i; cbn [free_chord place_where]; [reflexivity|].
  destruct H1 as (A & _). rewrite A. destruct (vacant p); cbn [negb option_map]; [f_equal; lia|]. rewrite IH. destruct (place_where vacant ps); cbn [option_map]; [f_equal; lia|reflexivity].
Qed.

(* ---- a key that waits -------------------------------------------------------------------------- *)
Lemma begun_okv (pe : fringe) m code d dl t : p_code pe = 0%N -> p_queue pe = [] -> code <> 0%N -> m_repeat m = None -> settled_action c d ->
  okv (put_off c pe code d dl t) (begin_key c code d dl t m) (waits c code d dl t).
Proof.
  intros P1 P2 Ph Hr [Sd|Ld].
  - rewrite sure_put by exact Sd. replace (waits c code d dl t) with (@None waiting) by (destruct d; first [reflexivity|contradiction Sd]). cbn [okv]. auto.
  - assert (Hh : forall m1, holding code (with_held ((code, (d, dl)) :: m_held m) m1) = Some (d, dl)).
    { intros m1. unfold holding. cbn [m_held with_held find fst]. now rewrite N.eqb_refl. }
    destruct Gc as (_ & G & _).
    assert (Ho : exists d', holding code (begin_key c code d dl t m) = Some (d', dl) /\ late_action c d').
    { exists d. split; [|exact Ld]. destruct d; try contradiction Ld; exact (Hh m). }
    destruct d; try contradiction Ld; cbn [put_off waits okv]; unfold with_pend; cbn [f_pend]; rewrite P2; cbn [pend_of w_code w_layer w_due w_rule w_tap w_hold w_queue beh].
    + split; [reflexivity|]. split; [exact Ho|]. split; [exact Ph|]. split; [apply G|]. split; [left; exact Ld|]. split; [exact Hr|]. split; [reflexivity|intros e []].
    + split; [reflexivity|]. split; [exact Ho|]. split; [exact Ph|]. split; [apply G|]. split; [left; exact Ld|]. split; [exact Hr|]. split; [reflexivity|intros e []].
    + split; [reflexivity|]. split; [exact Ho|]. split; [exact Ph|]. split; [apply G|]. split; [apply G|]. split; [exact Hr|]. split; [reflexivity|intros e []].
Qed.
Lemma put_off_chords pe code d dl t : f_chords (put_off c pe code d dl t) = f_chords pe.
Proof. destruct d; reflexivity. Qed.
Lemma passes_okv pk w m e : passes w e = true -> okv (pend_of w) m (Some w) -> okv (pend_of w) (step_by c pk m e) (Some w).
Proof.
  unfold passes. rewrite !andb_true_iff, !negb_true_iff, !N.eqb_neq. intros [[[Hz Hp] _] Hw] (_ & (d & Ho & Ld) & Ph & G1 & G2 & Hr & Hs & Hq).
  destruct (ready_core c m e Hz) as (R1 & R2 & R3). set (m2 := ready c m e) in *.
  assert (E : holding (w_code w) (step_by c pk m e) = holding (w_code w) m /\ m_repeat (step_by c pk m e) = None /\ m_struck (step_by c pk m e) = m_struck m).
  { rewrite (step_on_key_as c pk m e Hz). unfold on_key_as. fold m2. rewrite Hp. rewrite <- R3.
    assert (Hh : holding (w_code w) m2 = holding (w_code w) m) by (unfold holding; now rewrite R1). rewrite <- Hh.
    destruct (holding (ev_code e) m2) as [[d0 dl0]|]; [|split; [reflexivity|split; [exact R2|reflexivity]]].
    assert (Hn : m_struck (leave (ev_code e) m2) <> ev_code e) by (change (m_struck m2 <> ev_code e); congruence).
    pose proof (core_release c (ev_code e) d0 dl0 (ev_time e) (leave (ev_code e) m2) Hn) as C. injection C as C1 C2 C3.
    rewrite C2, C3. split; [|split; [exact R2|reflexivity]]. unfold holding. rewrite C1. unfold leave, forget. cbn [m_held with_held with_seats]. rewrite find_filter; [reflexivity|congruence]. }
  destruct E as (E1 & E2 & E3). split; [reflexivity|]. rewrite E1, E2, E3. split; [now exists d|]. auto 8.
Qed.

(* ---- events struck again ----------------------------------------------------------------------- *)
Definition safe (s : full) : Prop := forall l, given l = [] -> length (m_shots (g_m (fold_left act l s))) < 200.
Lemma safe_more s l : given l = [] -> safe s -> safe (fold_left act l s).
Proof. intros Hl H l' Hl'. rewrite <- fold_left_app. apply H. now rewrite given_app, Hl. Qed.
Lemma safe_now s : safe s -> length (m_shots (g_m s)) < 200.
Proof. intros H. exact (H [] eq_refl). Qed.
(* from s the machine, without further events from outside, comes to agree with k', and has then done all but todo *)
Definition reaches (s : full) (k' : kbd) (todo : list item) : Prop :=
  exists l, given l = [] /\ V (fold_left act l s) k' /\ g_todo (fold_left act l s) = todo.
Definition one_event (fuel : nat) : Prop := forall s k e k' t, V s k -> length (m_shots (g_m s)) < 200 -> safe (feed e s) ->
  process_event fuel k (ev_code e) (ev_pressed e) (ev_time e) = Ok (k', t) -> reaches (feed e s) k' (g_todo s).
Lemma reaches_now s k : V s k -> reaches s k (g_todo s).
Proof. intros H. exists []. auto. Qed.
Lemma reaches_trans s l k todo : given l = [] -> reaches (fold_left act l s) k todo -> reaches s k todo.
Proof. intros G (l2 & G2 & H). rewrite <- fold_left_app in H. exists (l ++ l2). split; [|exact H]. now rewrite given_app, G. Qed.
Lemma V_pop r s k : V s k -> V (pop r s) k.
Proof. intros H. exact H. Qed.
Lemma strike_next fuel s k it e r k' t : one_event fuel -> (it = Now e \/ it = Again e) -> V s k -> g_todo s = it :: r -> safe s ->
  process_event fuel k (ev_code e) (ev_pressed e) (ev_time e) = Ok (k', t) -> exists l, given l = [] /\ V (fold_left act l s) k' /\ g_todo (fold_left act l s) = r.
Proof.
  intros P Hi H Et Sf E.
  assert (Ea : act s Next = feed e (pop r s)) by (unfold act_all; rewrite Et; destruct Hi as [-> | -> ]; reflexivity).
  pose proof (safe_more s [Next] eq_refl Sf) as S1. cbn [fold_left] in S1. rewrite Ea in S1.
  destruct (P (pop r s) k e k' t H (safe_now s Sf) S1 E) as (l1 & G1 & W1 & T1). rewrite <- Ea in *.
  exists (Next :: l1). cbn [fold_left]. auto.
Qed.
Lemma replay_all fuel : one_event fuel -> forall n s k evs todo timeout ts k' t, V s k -> g_todo s = map Again evs ++ todo -> safe s ->
  pe_loop (process_event fuel) n k evs timeout ts = Ok (k', t) -> reaches s k' todo.
Proof.
  intros P. induction n as [|n IH]; intros s k evs todo timeout ts k' t H Et Sf E; destruct evs as [|e evs]; cbn [pe_loop] in E; try discriminate.
  - apply Ok_inj in E. injection E as <- _. exists []. auto.
  - apply Ok_inj in E. injection E as <- _. exists []. auto.
  - destruct (_ && _) eqn:C.
    + bstep E k1 E1. destruct k1 as [k1 t1]. apply andb_true_iff in C as [_ C].
      assert (Ea : act s (Pass ts) = feed (mkKev 0 false ts) s) by (unfold act_all; rewrite Et; cbn [map app]; now rewrite C).
      pose proof (safe_more s [Pass ts] eq_refl Sf) as S1. cbn [fold_left] in S1. rewrite Ea in S1.
      destruct (P s k (mkKev 0 false ts) k1 t1 H (safe_now s Sf) S1 E1) as (l1 & G1 & W1 & T1). rewrite <- Ea in *.
      apply (reaches_trans s (Pass ts :: l1)); [exact G1|]. cbn [fold_left].
      exact (IH _ k1 (e :: evs) todo t1 (ts + t1)%Z k' t W1 (eq_trans T1 Et) (safe_more _ _ G1 S1) E).
    + bstep E k1 E1. destruct k1 as [k1 t1]. cbn [map app] in Et.
      destruct (strike_next fuel s k (Again e) e _ k1 t1 P (or_intror eq_refl) H Et Sf E1) as (l1 & G1 & W1 & T1).
      apply (reaches_trans s l1); [exact G1|]. exact (IH _ k1 evs todo t1 (ev_time e + t1)%Z k' t W1 T1 (safe_more _ _ G1 Sf) E).
Qed.

(* ---- an event that belongs to no chord ----------------------------------------------------------- *)
Lemma V_timeouts s k v : V s k -> V s (set_k_timeouts v k).
Proof. intros (p & H & H'). exists p. split; [now apply S_timeouts|exact H']. Qed.
Definition later (fuel : nat) (k : kbd) (e : kev) : res (kbd * Z) :=
  '(k2, b2) <- handle_pending_key (fun k evs => pe_loop (process_event fuel) fuel k evs 0 0) k (ev_code e) (ev_pressed e) (ev_time e) ;;
  if b2 then Ok (calculate_main_loop_timeout k2 (ev_time e))
  else
    k3 <- expire_oneshot k2 (ev_time e) ;;
    k4 <- run_active_macro k3 (ev_code e) (ev_time e) ;;
    k5 <- handle_key k4 (ev_code e) (ev_pressed e) (ev_time e) ;;
    Ok (calculate_main_loop_timeout k5 (ev_time e)).
Lemma hand_decide fuel s w k e k' b : one_event fuel -> g_wait s = Some w -> V s k -> length (m_shots (g_m s)) < 200 -> safe (hand c e s) ->
  handle_pending_key (fun k evs => pe_loop (process_event fuel) fuel k evs 0 0) k (ev_code e) (ev_pressed e) (ev_time e) = Ok (k', b) ->
  b = negb (passes w e) /\ if b then reaches (hand c e s) k' (g_todo s) else k' = k.
Proof.
  intros P Ew (p & H & Hv & Op) L Sf E. rewrite Ew in Hv. destruct Hv as (-> & (d0 & Ho & Ld) & Hw & G1 & G2 & Hr & Hs & Hq).
  unfold handle_pending_key in E. rewrite (r_pend _ _ _ _ _ _ _ _ _ _ _ _ _ _ _ _ _ _ (proj2 H)) in E. cbn [f_pend p_code p_queue pend_of] in E.
  destruct (N.eqb_spec (w_code w) 0); [contradiction|]. destruct (negb (ev_code e =? 0)%N && negb (Nat.ltb _ _)); [discriminate|].
  change (negb (ev_code e =? 0)%N && negb (ev_pressed e) && negb (existsb (fun e0 => (ev_code e0 =? ev_code e)%N) (w_queue w)) && negb (ev_code e =? w_code w)%N) with (passes w e) in E.
  destruct (passes w e) eqn:Ps.
  { apply Ok_inj in E. injection E as <- <-. auto. }
  cbv zeta in E. assert (Ex : (if (ev_code e =? 0)%N then pend_of w else set_p_queue (w_queue w ++ [mkKev (ev_code e) (ev_pressed e) (ev_time e)]) (pend_of w)) = pend_of (extend w e)).
  { unfold extend. destruct (ev_code e =? 0)%N; [reflexivity|]. destruct e. reflexivity. }
  fold (pend_of w) in E. rewrite Ex in E. clear Ex.
  rewrite (verdict_ok w e Hw Hq Ps) in E. destruct (pend_code w e) as (Q1 & Q2 & Q3).
  assert (Hqe : forall x, In x (w_queue (extend w e)) -> ev_code x <> 0%N).
  { unfold extend. destruct (N.eqb_spec (ev_code e) 0) as [Ez|Hz]; [exact Hq|]. cbn [w_queue]. intros x Hx. apply in_app_or in Hx as [Hx|[<-|[]]]; [now apply Hq|exact Hz]. }
  set (still := Full (g_m s) (Some (extend w e)) (g_try s) (g_places s) (g_todo s)).
  assert (Ext : V still (set_k_pend (pend_of (extend w e)) k)).
  { exists (pend_of (extend w e)). split; [exact (S_pend c _ _ _ _ H)|]. split; [|exact Op].
    assert (F : w_code (extend w e) = w_code w /\ w_layer (extend w e) = w_layer w /\ w_tap (extend w e) = w_tap w /\ w_hold (extend w e) = w_hold w)
      by (unfold extend; destruct (_ =? _)%N; repeat split).
    destruct F as (F1 & F2 & F3 & F4). unfold still. cbn [okv g_m g_wait]. rewrite F1, F2, F3, F4. split; [reflexivity|]. split; [now exists d0|]. auto 8. }
  unfold hand in Sf |- *. rewrite Ew, Ps in Sf |- *. fold still in Sf |- *.
  assert (Wait : forall k2, Ok (set_k_pend (pend_of (extend w e)) k, true) = Ok (k2, b) -> k2 = k' -> b = negb false /\ if b then reaches still k' (g_todo s) else k' = k).
  { intros k2 X Y. apply Ok_inj in X. injection X as X1 X2. subst k2 b k'. split; [reflexivity|]. exact (reaches_now still _ Ext). }
  assert (Gv : forall d, verdict w e = Some d -> general_action c d).
  { unfold verdict. intros d X. destruct (_ <=? _)%Z; [injection X as <-; assumption|]. destruct (ev_code e =? 0)%N; [discriminate X|].
    destruct (ev_code e =? w_code w)%N; [injection X as <-; assumption|].
    destruct (w_rule w), (ev_pressed e); try discriminate X; injection X as <-; assumption. }
  destruct (verdict w e) as [d|] eqn:Vd; [|cbn [has_op] in E; exact (Wait k' E eq_refl)]. specialize (Gv d eq_refl).
  destruct (has_op d) eqn:Hop.
  2:{ assert (d = DNone) as -> by (destruct d; first [reflexivity|discriminate Hop]). exact (Wait k' E eq_refl). }
  clear Wait Ext. rewrite Q1, Q2, Q3 in E.
  set (m1 := forget (w_code w) (g_m s)) in *. set (d' := settle c d (ev_time e) m1) in *.
  cbv zeta in Sf |- *. fold m1 in Sf |- *. fold d' in Sf |- *.
  set (next := Full (begin_key c (w_code w) d' (w_layer w) (ev_time e) m1) (waits c (w_code w) d' (w_layer w) (ev_time e)) (g_try s) (g_places s) (map Again (w_queue (extend w e)) ++ g_todo s)) in *.
  assert (Fd : match d with DNone => still | _ => next end = next) by (destruct d; first [reflexivity|discriminate Hop]).
  rewrite Fd in Sf |- *. clear Fd still.
  set (idle0 := set_p_code 0 (set_p_queue [] (pend_of (extend w e)))) in *.
  pose proof (S_pend c _ idle0 _ _ H) as Hi. set (k1 := set_k_pend idle0 k) in *. clearbody k1.
  set (idle := with_pend idle0 (Fringe (pend_of w) (around (g_try s) (g_places s)))) in *.
  destruct (swap_cache c idle (g_m s) k1 (w_code w) d0 (w_layer w) d (w_layer w) Hi Hw Ho Ld) as (ca & ca' & X1 & X2 & X3).
  rewrite X1 in E. bstep E k3 E3. bstep E k4 E4. destruct k4 as [k4 t4]. apply Ok_inj in E. injection E as E1 E2. subst k' b. split; [reflexivity|].
  change (set_k_cache ca k1) with (set_k_cache ca (set_k_cache ca' k1)) in E3, X3. fold m1 in X2, X3.
  assert (R1 : m_repeat m1 = None) by exact Hr.
  assert (H3 : Si (put_off c idle (w_code w) d' (w_layer w) (ev_time e)) (begin_key c (w_code w) d' (w_layer w) (ev_time e) m1) k3).
  { apply (begin_sim c idle m1 (set_k_cache ca' k1) ca _ _ _ _ _ (rise (w_code w) (m_seats (g_m s)))); try assumption. intros v Hv Sv. split; [|now apply X3].
    destruct Hv as [->|[x ->]]; [exact X2|]. apply view_to; [exact X2|exact Hw|apply left_holding]. }
  assert (W3 : V next k3).
  { exists (put_off c idle (w_code w) d' (w_layer w) (ev_time e)). unfold next. cbn [g_m g_wait g_try g_places]. split; [|split; [|exact Op]].
    - pose proof (put_off_chords idle (w_code w) d' (w_layer w) (ev_time e)) as Pc. destruct (put_off c idle _ _ _ _) as [p0 q0]. cbn [f_chords f_pend] in *. subst q0. exact H3.
    - apply begun_okv; try assumption; try reflexivity. unfold d'. now apply settle_settled. }
  exact (replay_all fuel P _ next k3 _ _ _ _ _ _ W3 eq_refl Sf E4).
Qed.
Lemma hand_ok fuel s k e k' t : one_event fuel -> V s k -> length (m_shots (g_m s)) < 200 -> safe (hand c e s) ->
  later fuel k e = Ok (k', t) -> reaches (hand c e s) k' (g_todo s).
Proof.
  intros P H L Sf E. unfold later in E. bstep E k2 E2. destruct k2 as [k2 b].
  assert (Stp : forall p k3 k4 k5, Si (Fringe p (around (g_try s) (g_places s))) (g_m s) k -> okp (g_places s) -> expire_oneshot k (ev_time e) = Ok k3 ->
     run_active_macro k3 (ev_code e) (ev_time e) = Ok k4 -> handle_key k4 (ev_code e) (ev_pressed e) (ev_time e) = Ok k5 ->
     Si (put_off_as c (pick c (g_places s) (ready c (g_m s) e) (ev_code e)) (Fringe p (around (g_try s) (g_places s))) (ready c (g_m s) e) (ev_code e) (ev_pressed e) (ev_time e))
       (step_by c (pick c (g_places s)) (g_m s) e) k5).
  { intros p k3 k4 k5 Hs Op E3 E4 E5. apply (step_sim_as c (pick c (g_places s)) _ (g_m s) k e k3 k4 k5); try assumption.
    - intros Hz k0 H0. exact (picked p (g_try s) (g_places s) _ k0 (ev_code e) H0 Hz).
    - intros _. now apply pick_general. }
  destruct (g_wait s) as [w|] eqn:Ew.
  - destruct (hand_decide fuel s w k e k2 b P Ew H L Sf E2) as [Eb D]. destruct b.
    + apply Ok_inj in E. unfold calculate_main_loop_timeout in E. injection E as E _. subst k'. destruct D as (l & D1 & D2 & D3). exists l. split; [exact D1|].
      split; [now apply V_timeouts|exact D3].
    + subst k2. symmetry in Eb. apply negb_false_iff in Eb. bstep E k3 E3. bstep E k4 E4. bstep E k5 E5. apply Ok_inj in E.
      unfold calculate_main_loop_timeout in E. injection E as E _. subst k'. destruct H as (p & H & Hv & Op). rewrite Ew in Hv. pose proof Hv as (Ep & _). subst p.
      pose proof (Stp _ _ _ _ H Op E3 E4 E5) as H5. unfold hand. rewrite Ew, Eb. apply (reaches_now (Full _ _ _ _ _)). apply V_timeouts. exists (pend_of w). cbn [g_m g_wait g_try g_places].
      split; [|split; [now apply passes_okv|exact Op]].
      assert (Rp : ev_pressed e = false). { unfold passes in Eb. rewrite !andb_true_iff, !negb_true_iff in Eb. apply Eb. }
      unfold put_off_as in H5. rewrite Rp in H5. exact H5.
  - destruct H as (p & H & Hv & Op). rewrite Ew in Hv. destruct Hv as [P1 P2].
    unfold handle_pending_key in E2. rewrite (r_pend _ _ _ _ _ _ _ _ _ _ _ _ _ _ _ _ _ _ (proj2 H)) in E2. cbn [f_pend] in E2. rewrite P1 in E2. cbn [N.eqb] in E2.
    apply Ok_inj in E2. injection E2 as <- <-. bstep E k3 E3. bstep E k4 E4. bstep E k5 E5. apply Ok_inj in E.
    unfold calculate_main_loop_timeout in E. injection E as E _. subst k'. pose proof (Stp _ _ _ _ H Op E3 E4 E5) as H5.
    unfold hand. rewrite Ew. apply (reaches_now (Full _ _ _ _ _)). apply V_timeouts.
    set (pe := Fringe p (around (g_try s) (g_places s))) in *. set (pk := pick c (g_places s)) in *.
    assert (X : f_chords (put_off_as c (pk (ready c (g_m s) e) (ev_code e)) pe (ready c (g_m s) e) (ev_code e) (ev_pressed e) (ev_time e)) = around (g_try s) (g_places s)
      /\ okv (put_off_as c (pk (ready c (g_m s) e) (ev_code e)) pe (ready c (g_m s) e) (ev_code e) (ev_pressed e) (ev_time e)) (step_by c pk (g_m s) e) (begins_by c pk (g_m s) e)).
    { unfold put_off_as, begins_by. fold (ready c (g_m s) e). cbv zeta. destruct (N.eqb_spec (ev_code e) 0) as [Ez|Hz].
      - destruct (ev_pressed e); [destruct (holding _ _)|]; (split; [reflexivity|]); cbn [okv]; auto.
      - rewrite (step_on_key_as c pk (g_m s) e Hz). unfold on_key_as.
        destruct (ev_pressed e); [|split; [reflexivity|cbn [okv]; auto]]. destruct (holding _ _); [split; [reflexivity|cbn [okv]; auto]|].
        destruct (Nat.ltb _ _); [|split; [reflexivity|cbn [okv]; auto]]. pose proof (pick_general (g_places s) (ready c (g_m s) e) (ev_code e) Op) as Gd. fold pk in Gd.
        destruct (pk (ready c (g_m s) e) (ev_code e)) as [d dl]. split; [apply put_off_chords|]. apply begun_okv; try assumption; [apply ready_core, Hz|now apply settle_settled]. }
    destruct X as [X1 X2]. destruct (put_off_as c _ pe _ _ _ _) as [p0 q0]. cbn [f_chords f_pend] in *. subst q0.
    exists p0. cbn [g_m g_wait g_try g_places]. auto.
Qed.

(* ---- the end of an attempt ------------------------------------------------------------------------ *)
(* all but the attempt *)
Definition near (s : full) (k : kbd) : Prop :=
  Forall2 placed (g_places s) (k_achords k) /\ okp (g_places s) /\ exists p Q, Si (Fringe p Q) (g_m s) k /\ okv p (g_m s) (g_wait s).
Lemma V_near s k : V s k -> near s k /\ tried (g_try s) (k_chord k).
Proof.
  intros (p & H & Hv & Op). destruct (S_placed _ _ _ _ _ H) as [T F]. split; [|exact T]. split; [exact F|]. split; [exact Op|]. exists p. eexists. split; [exact H|exact Hv].
Qed.
Lemma near_V x s k : near s k -> tried x (k_chord k) -> V (trying_now x s) k.
Proof.
  intros (F & Op & p & Q & H & Hv) T. exists p. split; [|split; [exact Hv|exact Op]]. exact (S_fringe _ _ _ _ _ H (conj T F)).
Qed.
Lemma near_chord h s k : near s k -> near s (set_k_chord h k).
Proof.
  intros (F & Op & p & Q & H & Hv). split; [exact F|]. split; [exact Op|]. exists p, (fun _ _ => True). split; [|exact Hv]. now apply (S_chord _ Q).
Qed.
Lemma near_timeouts v s k : near s k -> near s (set_k_timeouts v k).
Proof. intros (F & Op & p & Q & H & Hv). split; [exact F|]. split; [exact Op|]. exists p, Q. split; [now apply S_timeouts|exact Hv]. Qed.
Lemma near_schedule s k t k' : near s k -> schedule_timeout k t = Ok k' -> near s k' /\ k_chord k' = k_chord k.
Proof.
  unfold schedule_timeout. intros H E. destruct (Nat.ltb _ _); [|discriminate]. apply Ok_inj in E. subst k'. split; [now apply near_timeouts|reflexivity].
Qed.
Lemma near_places i p ac s k : near s k -> placed p ac -> general_action c (q_do p) -> forall r,
  near (Full (g_m s) (g_wait s) (g_try s) (upd i p (g_places s)) r) (set_k_achords (upd i ac (k_achords k)) k).
Proof.
  intros (F & Op & p0 & Q & H & Hv) Hp Gp r. split; [exact (placed_upd p ac Hp _ _ i F)|]. split; [exact (okp_upd i p _ Op Gp)|].
  exists p0, (fun _ _ => True). split; [|exact Hv]. destruct H as [A R]. split; [exact A|]. destruct R. constructor; try assumption. exact Logic.I.
Qed.
Lemma near_cfg s k : near s k -> k_cfg k = c.
Proof. intros (_ & _ & p & Q & H & _). exact (r_cfg _ _ _ _ _ _ _ _ _ _ _ _ _ _ _ _ _ _ (proj2 H)). Qed.
Lemma place_lt f : forall ps i, place_where f ps = Some i -> i < length ps /\ f (nth i ps free) = true.
Proof.
  induction ps as [|p ps IH]; intros i; cbn [place_where]; [discriminate|]. destruct (f p) eqn:Ef.
  - intros X. injection X as <-. cbn [length nth]. split; [lia|exact Ef].
  - destruct (place_where f ps) as [j|]; [|discriminate]. cbn [option_map]. intros X. injection X as <-. destruct (IH j eq_refl). cbn [length nth]. split; [lia|assumption].
Qed.
Lemma reaches_over s k todo : reaches s k (Over :: todo) -> reaches s (set_cstate CsInactive k) todo.
Proof.
  intros (l & G & H & T). exists (l ++ [Next]). rewrite fold_left_app. cbn [fold_left]. split; [now rewrite given_app, G|].
  set (s1 := fold_left act l s) in *. clearbody s1. unfold act_all. rewrite T. split; [|reflexivity].
  apply V_near in H as [H _]. apply (near_V Calm (pop todo s1)); [|reflexivity]. exact (near_chord _ s1 k H).
Qed.
Section Turn.
Variable fuel : nat.
Hypothesis P : one_event fuel.
Notation pe := (process_event fuel).
Notation pes := (fun k evs => pe_loop (process_event fuel) fuel k evs 0 0).
Lemma resolve_ok s k a k' b : near s k -> att a (k_chord k) -> safe (conclude a s) -> resolve_chord pe pes k = Ok (k', b) ->
  b = true /\ reaches (conclude a s) k' (g_todo s).
Proof.
  intros H (A1 & A2 & A3) Sf E. unfold resolve_chord in E. cbv zeta in E.
  pose proof (near_chord (set_h_state CsResolving (k_chord k)) s k H) as H0. change (set_k_chord _ k) with (set_cstate CsResolving k) in H0.
  pose proof (near_cfg s k H) as Ec.
  change (h_match (k_chord (set_cstate CsResolving k))) with (h_match (k_chord k)) in E.
  change (h_queue (k_chord (set_cstate CsResolving k))) with (h_queue (k_chord k)) in E.
  unfold conclude in Sf |- *. rewrite A1 in E. destruct (a_found a) as [[ch dl]|]; cbn [found_in] in A3.
  - destruct A3 as (ci & M1 & M2 & M3 & M4 & M5). rewrite M1 in E. bstep E y Ey. destruct y as [k2 off]. bstep Ey ch' Ed.
    unfold deref_match in Ed. destruct (_ && _) in Ed; [|discriminate Ed]. apply Ok_inj in Ed. unfold layer_at in Ed. cbn [k_cfg set_cstate set_k_chord] in Ed. rewrite Ec in Ed. fold (the c dl) in Ed. rewrite M3 in Ed. subst ch'.
    change (k_achords (set_cstate CsResolving k)) with (k_achords k) in Ey. rewrite (free_where _ _ (proj1 H)) in Ey.
    destruct (place_where vacant (g_places s)) as [i|] eqn:Ew; cbn [option_map Nat.add] in Ey; [|discriminate Ey].
    change (h_mlayer (k_chord (set_cstate CsResolving k))) with (h_mlayer (k_chord k)) in Ey. rewrite M2 in Ey.
    bstep Ey y2 Ep. destruct y2 as [k3 t3]. apply Ok_inj in Ey. injection Ey as <- <-.
    set (k1 := set_k_achords _ _) in Ep. change (h_last (k_chord k1)) with (h_last (k_chord k)) in Ep. rewrite A2 in Ep.
    destruct (Nat.ltb _ _); [discriminate E|]. bstep E y3 E3. destruct y3 as [k4 t4]. apply Ok_inj in E. injection E as <- <-. split; [reflexivity|].
    set (s1 := Full _ _ _ _ _) in Sf |- *. destruct Gc as (_ & _ & G3). destruct (G3 dl ch M4) as [Gd Gk].
    assert (Hp : placed (Place (ch_keys ch) (ch_d ch) dl) (mkAc true ch dl)).
    { split; [unfold vacant; cbn [q_keys]; destruct (ch_keys ch); [now contradiction M5|reflexivity]|]. cbn [ac_chord q_keys q_do q_layer ac_layer]. split; [|split; reflexivity].
      clear - Gk. induction (ch_keys ch) as [|x l IH]; cbn [filter]; [reflexivity|]. unfold filled at 1. destruct (N.eqb_spec x 0) as [X|_]; [exfalso; exact (Gk x (or_introl eq_refl) X)|].
      cbn [negb]. f_equal. apply IH. intros y Hy. apply Gk. now right. }
    assert (V1 : V s1 k1).
    { apply (near_V Replaying s1); [|reflexivity]. exact (near_places i _ _ s (set_cstate CsResolving k) H0 Hp Gd []). }
    destruct (strike_next fuel s1 k1 _ (mkKev (chord_code i) true (a_last a)) _ k3 t3 P (or_introl eq_refl) V1 eq_refl Sf Ep) as (l1 & L1 & L2 & L3).
    apply reaches_over. apply (reaches_trans s1 l1 _ _ L1). exact (replay_all fuel P fuel _ k3 _ _ 0 0 k4 t4 L2 L3 (safe_more _ _ L1 Sf) E3).
  - rewrite A3 in E. cbn [bind Nat.ltb Nat.leb skipn] in E. bstep E y3 E3. destruct y3 as [k4 t4]. apply Ok_inj in E. injection E as <- <-. split; [reflexivity|].
    set (s1 := Full _ _ _ _ _) in Sf |- *. apply reaches_over.
    assert (V1 : V s1 (set_cstate CsResolving k)) by (apply (near_V Replaying s1); [exact H0|reflexivity]).
    exact (replay_all fuel P fuel s1 _ _ _ 0 0 k4 t4 V1 eq_refl Sf E3).
Qed.
Lemma abort_ok s k q k' b : near s k -> h_queue (k_chord k) = q -> safe (give_up q s) -> abort_chord pe pes k = Ok (k', b) ->
  b = true /\ reaches (give_up q s) k' (g_todo s).
Proof.
  intros H Eq Sf E. unfold abort_chord in E. unfold give_up in *. 
  assert (A : conclude (Attempt q None 0) s = conclude (Attempt q None (h_last (k_chord k))) s) by reflexivity. rewrite A in *.
  apply (resolve_ok s _ (Attempt q None (h_last (k_chord k)))) in E; [exact E|now apply near_chord| |exact Sf].
  split; [exact Eq|]. split; reflexivity.
Qed.
Lemma consider_ok s k q old t r k2 : near s k -> h_queue (k_chord k) = q -> found_in old (k_chord k) -> check_chord_match k = (r, k2) ->
  (r = CC0 /\ k2 = k /\ consider c q old t s = None)
  \/ (r <> CC0 /\ exists s', consider c q old t s = Some s'
      /\ forall k' b, safe s' -> chord_matched pe pes k2 r t = Ok (k', b) -> b = true /\ reaches s' k' (g_todo s)).
Proof.
  intros H Eq Fo E. pose proof (near_cfg s k H) as Ec. pose proof H as (_ & _ & p & Q & Hs & _). destruct (check_spec _ _ _ _ _ Hs E) as [Er Ek]. rewrite Eq in Er, Ek. clear E Hs.
  unfold consider. set (found := match best c (g_m s) q with Some b => Some b | None => old end).
  assert (H2 : near s k2 /\ h_queue (k_chord k2) = q /\ found_in found (k_chord k2) /\ k_cfg k2 = c).
  { unfold found. destruct (best c (g_m s) q) as [[ch li]|].
    - destruct Ek as (Gd & ci & Nc & Ek). subst k2. split; [now apply near_chord|]. split; [exact Eq|]. split; [|exact Ec]. cbn [found_in]. exists ci. repeat split; try assumption; apply Gd.
    - subst k2. auto. }
  destruct H2 as (H2 & Q2 & F2 & C2).
  assert (Att : att (Attempt q found t) (set_h_last t (k_chord k2))) by (split; [exact Q2|split; [reflexivity|exact F2]]).
  pose proof (near_chord (set_h_last t (k_chord k2)) s k2 H2) as H3.
  assert (Op : forall k' b, schedule_timeout (set_cstate CsDisambiguation (set_k_chord (set_h_last t (k_chord k2)) k2)) (t + c_chord_interkey (k_cfg k2))%Z = Ok k' -> b = true ->
     b = true /\ reaches (trying_now (Open (Attempt q found t)) s) k' (g_todo s)).
  { intros k' b X ->. split; [reflexivity|]. apply (reaches_now (trying_now _ s)).
    apply (near_schedule s) in X as [X1 X2]; [|exact (near_chord _ s _ H3)]. apply near_V; [exact X1|]. rewrite X2. split; [reflexivity|exact Att]. }
  destruct (best c (g_m s) q) as [bst|] eqn:Eb, (more c (g_m s) q) eqn:Em; subst r.
  - right. split; [discriminate|]. eexists. split; [reflexivity|]. intros k' b _ E. unfold chord_matched in E. cbv zeta in E. bstep E y Ey. apply Ok_inj in E. injection E as <- <-. exact (Op y true Ey eq_refl).
  - right. split; [discriminate|]. eexists. split; [reflexivity|]. intros k' b Sf E. unfold chord_matched in E. cbv zeta in E. rewrite C2 in E. destruct (_ =? _)%Z.
    + apply (resolve_ok s _ (Attempt q found t)) in E; [exact E|exact H3|exact Att|exact Sf].
    + bstep E y Ey. apply Ok_inj in E. injection E as <- <-. split; [reflexivity|]. apply (reaches_now (trying_now _ s)).
      apply (near_schedule s) in Ey as [X1 X2]; [|exact (near_chord _ s _ H3)]. apply near_V; [exact X1|]. rewrite X2. split; [reflexivity|]. split; [exact Att|]. discriminate.
  - right. split; [discriminate|]. eexists. split; [reflexivity|]. intros k' b _ E. unfold chord_matched in E. cbv zeta in E. bstep E y Ey. apply Ok_inj in E. injection E as <- <-. exact (Op y true Ey eq_refl).
  - left. auto.
Qed.

(* ---- one event -------------------------------------------------------------------------------------- *)
Lemma cleared_keys code : code <> 0%N -> forall l, filter filled (map (fun x => if (x =? code)%N then 0%N else x) l) = filter (fun x => negb (x =? code)%N) (filter filled l).
Proof.
  intros Hc. induction l as [|x l IH]; cbn [map filter]; [reflexivity|]. destruct (N.eqb_spec x code) as [->|Hn].
  - change (filled 0) with false. cbn iota. unfold filled at 2. destruct (N.eqb_spec code 0); [contradiction|]. cbn [negb filter]. rewrite N.eqb_refl. cbn [negb]. exact IH.
  - destruct (filled x); [|exact IH]. cbn [filter]. destruct (N.eqb_spec x code); [contradiction|]. cbn [negb]. now rewrite IH.
Qed.
Lemma exists_filter {A} (f : A -> bool) l : existsb f l = match filter f l with [] => false | _ => true end.
Proof. induction l as [|x l IH]; cbn [existsb filter]; [reflexivity|]. destruct (f x); [reflexivity|exact IH]. Qed.
Lemma nothing_best m : best c m [] = None.
Proof.
  unfold best. destruct (find _ _) as [i|] eqn:F; [|reflexivity]. apply find_some in F as [_ F]. apply andb_true_iff in F as [_ F]. apply existsb_exists in F as (x & _ & F). discriminate.
Qed.
Lemma nothing_more m : more c m [] = false.
Proof.
  unfold more. apply not_true_iff_false. rewrite existsb_exists. intros (i & _ & F). apply andb_true_iff in F as [_ F]. apply existsb_exists in F as (x & _ & F). discriminate.
Qed.
Lemma enqueued s k e k1 : near s k -> ev_code e <> 0%N -> enqueue_chord_event k (ev_code e) (ev_pressed e) (ev_time e) = Ok k1 ->
  k1 = set_k_chord (set_h_queue (h_queue (k_chord k) ++ [e]) (k_chord k)) k /\ near s k1.
Proof.
  intros H Hz E. unfold enqueue_chord_event in E. destruct (N.eqb_spec (ev_code e) 0); [contradiction|]. destruct (Nat.ltb _ _); [|discriminate]. apply Ok_inj in E.
  assert (Ee : mkKev (ev_code e) (ev_pressed e) (ev_time e) = e) by now destruct e. rewrite Ee in E. subst k1. split; [reflexivity|]. now apply near_chord.
Qed.
Lemma chord_ok s k e k1 b : V s k -> safe (feed e s) -> handle_chord pe pes k (ev_code e) (ev_pressed e) (ev_time e) = Ok (k1, b) ->
  if b then reaches (feed e s) k1 (g_todo s) else V s k1 /\ feed e s = hand c e s.
Proof.
  intros H Sf E. pose proof H as Hv. apply V_near in H as [H T]. pose proof (near_cfg s k H) as Ec. unfold handle_chord in E. cbv zeta in E. rewrite Ec in E.
  set (go := if negb (ev_code e =? 0)%N && negb (ev_pressed e) then place_where (holds (ev_code e)) (g_places s) else None).
  assert (Eg : (if negb (ev_code e =? 0)%N && negb (ev_pressed e) then chord_of_key (k_achords k) (ev_code e) 0 else None) = go).
  { unfold go. destruct (N.eqb_spec (ev_code e) 0) as [|Hz]; cbn [negb andb]; [reflexivity|]. destruct (ev_pressed e); cbn [negb]; [reflexivity|].
    rewrite (find_where _ Hz _ _ (proj1 H) 0). destruct (place_where _ _); reflexivity. }
  rewrite Eg in E. clear Eg. unfold feed_all in Sf |- *. cbv zeta in Sf |- *. fold go in Sf |- *.
  destruct go as [i|] eqn:Go.
  { unfold go in Go. destruct (N.eqb_spec (ev_code e) 0) as [|Hz]; cbn [negb andb] in Go; [discriminate Go|]. destruct (ev_pressed e); cbn [negb] in Go; [discriminate Go|]. clear go.
    pose proof (placed_nth _ _ i (proj1 H)) as (_ & P2 & P3 & P4). set (p := nth i (g_places s) free) in *. set (ac := nth i (k_achords k) zero_ac) in *.
    set (left := filter _ (q_keys p)) in *. set (keys' := map _ _) in E.
    assert (El : filter filled keys' = left) by (unfold keys', left; rewrite <- P2; now apply cleared_keys).
    change (existsb (fun x => negb (x =? 0)%N) keys') with (existsb filled keys') in E. rewrite (exists_filter filled keys'), El in E.
    set (ac' := mkAc _ _ _) in E.
    assert (Hp : placed (Place left (q_do p) (q_layer p)) ac').
    { split; [cbn [ac' ac_active]; unfold vacant; cbn [q_keys]; destruct left; reflexivity|]. split; [exact El|]. split; [exact P3|exact P4]. }
    assert (Gp : general_action c (q_do p)).
    { unfold p. destruct (nth_in_or_default i (g_places s) free) as [I|X]; [apply (proj1 (proj2 H)), I|]. rewrite X. left. exact Logic.I. }
    set (k0 := set_k_achords _ k) in E. set (s1 := Full _ _ _ _ _) in Sf |- *.
    assert (V1 : V s1 k0) by (apply (near_V (g_try s) s1); [exact (near_places i _ _ s k H Hp Gp [])|exact T]).
    clearbody left ac'. destruct left as [|x left].
    - bstep E y Ey. destruct y as [k2 t2]. apply Ok_inj in E. injection E as <- <-.
      exact (strike_next fuel s1 k0 _ (mkKev (chord_code i) false (ev_time e)) _ k2 t2 P (or_introl eq_refl) V1 eq_refl Sf Ey).
    - apply Ok_inj in E. injection E as <- <-. exact (reaches_now s1 k0 V1). }
  clear go Go. destruct (g_try s) as [| |a|a] eqn:Et; cbn [tried] in T.
  - rewrite T in E. destruct (N.eqb_spec (ev_code e) 0) as [Ez|Hz].
    + rewrite Ez in E. unfold enqueue_chord_event in E. cbn [N.eqb bind] in E. set (k0 := set_k_chord _ k) in E. destruct (check_chord_match k0) as [r k2] eqn:Ck.
      pose proof (near_chord (set_h_match None (set_h_queue [] (k_chord k))) s k H) as H0. fold k0 in H0.
      pose proof H0 as (_ & _ & p & Q & Hs & _). destruct (check_spec _ _ _ _ _ Hs Ck) as [Er Ek]. change (h_queue (k_chord k0)) with (@nil kev) in Er, Ek.
      rewrite nothing_best, nothing_more in Er. rewrite nothing_best in Ek. subst r k2. apply Ok_inj in E. injection E as <- <-. split; [|reflexivity].
      replace s with (trying_now Calm s) by (rewrite <- Et; now destruct s). apply near_V; [exact H0|exact T].
    + bstep E k3 E3. pose proof (near_chord (set_h_match None (set_h_queue [] (k_chord k))) s k H) as H0. destruct (enqueued s _ e k3 H0 Hz E3) as [E4 H4].
      destruct (check_chord_match k3) as [r k2] eqn:Ck.
      destruct (consider_ok s k3 [e] None (ev_time e) r k2 H4) as [(X1 & X2 & X3)|(X1 & s' & X2 & X3)]; try (subst k3; reflexivity); try exact Ck.
      * subst r k2. rewrite X3. apply Ok_inj in E. injection E as <- <-. split; [|reflexivity].
        replace s with (trying_now Calm s) by (rewrite <- Et; now destruct s). apply near_V; [exact H4|]. subst k3. exact T.
      * rewrite X2 in Sf |- *. assert (E' : chord_matched pe pes k2 r (ev_time e) = Ok (k1, b)) by (destruct r; [now contradiction X1|exact E..]).
        destruct (X3 k1 b Sf E') as [-> X4]. exact X4.
  - rewrite T in E. apply Ok_inj in E. injection E as <- <-. split; [exact Hv|reflexivity].
  - destruct T as [T At]. pose proof At as (A1 & A2 & A3). rewrite T in E. destruct (N.eqb_spec (ev_code e) 0) as [Ez|Hz].
    + rewrite A2 in E. destruct (_ <=? _)%Z; [|apply Ok_inj in E; injection E as <- <-; split; [exact Hv|reflexivity]].
      destruct (a_found a) as [[ch li]|] eqn:Fo.
      * pose proof A3 as (ci & M1 & _). rewrite M1 in E. destruct (0 <? _)%Z.
        -- bstep E y Ey. apply Ok_inj in E. injection E as <- <-. apply (near_schedule s) in Ey as [X1 X2]; [|exact H]. apply (reaches_now (trying_now _ s)).
           apply near_V; [exact (near_chord _ s y X1)|]. split; [reflexivity|]. cbn [k_chord set_cstate set_k_chord]. rewrite X2. split; [exact At|]. now rewrite Fo.
        -- destruct (resolve_ok s k a k1 b H At Sf E) as [-> X]. exact X.
      * rewrite A3 in E. destruct (abort_ok s k (a_queue a) k1 b H A1 Sf E) as [-> X]. exact X.
    + bstep E k3 E3. destruct (enqueued s _ e k3 H Hz E3) as [E4 H4].
      assert (Q3 : h_queue (k_chord k3) = a_queue a ++ [e]) by (subst k3; cbn [k_chord set_k_chord h_queue set_h_queue]; now rewrite A1).
      destruct (ev_pressed e); cbn [negb] in E.
      2:{ destruct (abort_ok s k3 _ k1 b H4 Q3 Sf E) as [-> X]. exact X. }
      destruct (check_chord_match k3) as [r k2] eqn:Ck.
      destruct (consider_ok s k3 (a_queue a ++ [e]) (a_found a) (ev_time e) r k2 H4 Q3) as [(X1 & X2 & X3)|(X1 & s' & X2 & X3)]; try exact Ck.
      { subst k3. exact A3. }
      * subst r k2. rewrite X3 in Sf |- *. destruct (abort_ok s k3 _ k1 b H4 Q3 Sf E) as [-> X]. exact X.
      * rewrite X2 in Sf |- *. assert (E' : chord_matched pe pes k2 r (ev_time e) = Ok (k1, b)) by (destruct r; [now contradiction X1|exact E..]).
        destruct (X3 k1 b Sf E') as [-> X4]. exact X4.
  - destruct T as (T & At & Nf). pose proof At as (A1 & A2 & A3). rewrite T in E. destruct (N.eqb_spec (ev_code e) 0) as [Ez|Hz].
    + rewrite A2 in E. destruct (_ <=? _)%Z; [|apply Ok_inj in E; injection E as <- <-; split; [exact Hv|reflexivity]].
      destruct (resolve_ok s k a k1 b H At Sf E) as [-> X]. exact X.
    + bstep E k3 E3. destruct (enqueued s _ e k3 H Hz E3) as [E4 H4].
      assert (Q3 : h_queue (k_chord k3) = a_queue a ++ [e]) by (subst k3; cbn [k_chord set_k_chord h_queue set_h_queue]; now rewrite A1).
      set (kept := trying_now _ s) in Sf |- *.
      assert (Vk : V kept k3).
      { apply near_V; [exact H4|]. subst k3. split; [exact T|]. split; [|exact Nf]. split; [exact Q3|]. split; [exact A2|exact A3]. }
      destruct (ev_pressed e); cbn [negb] in E; [apply Ok_inj in E; injection E as <- <-; exact (reaches_now kept k3 Vk)|].
      destruct (a_found a) as [[ch li]|]; [|now contradiction Nf]. pose proof A3 as (ci & M1 & _ & M3 & _).
      assert (M3' : h_match (k_chord k3) = Some (li, ci)) by (subst k3; exact M1). rewrite M3' in E. bstep E ch' Ed.
      unfold deref_match in Ed. destruct (_ && _) in Ed; [|discriminate Ed]. apply Ok_inj in Ed. unfold layer_at in Ed. rewrite (near_cfg s k3 H4) in Ed. fold (the c li) in Ed. rewrite M3 in Ed. subst ch'.
      unfold in_keys in E. destruct (existsb _ _).
      * destruct (abort_ok s k3 _ k1 b H4 Q3 Sf E) as [-> X]. exact X.
      * apply Ok_inj in E. injection E as <- <-. exact (reaches_now kept k3 Vk).
Qed.
End Turn.
Lemma every_event : forall fuel, one_event fuel.
Proof.
  induction fuel as [|fuel IH]; intros s k e k' t H L Sf E; [discriminate|]. cbn [process_event] in E. unfold process_event_F in E.
  bstep E y Ey. destruct y as [k1 b]. pose proof (chord_ok fuel IH s k e k1 b H Sf Ey) as X. destruct b.
  - apply Ok_inj in E. unfold calculate_main_loop_timeout in E. injection E as E _. subst k'. destruct X as (l & D1 & D2 & D3). exists l. split; [exact D1|].
    split; [now apply V_timeouts|exact D3].
  - destruct X as [H1 Eh]. rewrite Eh in *. exact (hand_ok fuel s k1 e k' t IH H1 L Sf E).
Qed.

(* ---- runs ---------------------------------------------------------------------------------------------- *)
Lemma outside_V s k k' : V s k -> outside k k' -> V s k'.
Proof. intros (p & H & O) Ou. exists p. split; [now apply (outside_sim c _ _ k)|exact O]. Qed.
Lemma start_V clk : (dawn c <= clk)%Z -> V (start_all c) (new_keyboard c clk).
Proof.
  intros Hk. exists (k_pend (new_keyboard c clk)). split; [|split; [split; reflexivity|]].
  - apply start_sim_as; [|exact Hk]. split; [reflexivity|]. repeat constructor.
  - intros p [<-|[<-|[<-|[]]]]; left; exact Logic.I.
Qed.
Lemma full_runs clk evs k : (dawn c <= clk)%Z -> calls_of c clk evs k ->
  (forall l rest, given l ++ rest = evs -> length (m_shots (g_m (turns_all c l))) < 200) ->
  exists l, given l = evs /\ g_todo (turns_all c l) = [] /\ V (turns_all c l) k.
Proof.
  intros Hk H. induction H as [|evs k fuel e k' t H IH E|evs k k' H IH Ou]; intros L.
  - exists []. split; [reflexivity|]. split; [reflexivity|]. now apply start_V.
  - destruct IH as (l & G & T & Wl).
    { intros l rest El. apply (L l (rest ++ [e])). now rewrite app_assoc, El. }
    assert (Ea : act (turns_all c l) (Given e) = feed e (turns_all c l)) by (unfold act_all; now rewrite T).
    assert (Sf : safe (feed e (turns_all c l))).
    { intros l' Gl'. rewrite <- Ea. specialize (L (l ++ Given e :: l') []). unfold turns_all in L |- *. rewrite fold_left_app in L. apply L.
      rewrite given_app, G. change (given (Given e :: l')) with (e :: given l'). rewrite Gl'. now rewrite app_nil_r. }
    destruct (every_event fuel (turns_all c l) k e k' t Wl) as (l2 & G2 & W2 & T2); try assumption.
    { apply (L l [e]). now rewrite G. }
    rewrite <- Ea in *. exists (l ++ Given e :: l2). unfold turns_all in *. rewrite fold_left_app. cbn [fold_left].
    split; [|split; [now rewrite T2|exact W2]]. rewrite given_app, G. change (given (Given e :: l2)) with (e :: given l2). now rewrite G2.
  - destruct (IH L) as (l & G & T & Wl). exists l. split; [exact G|]. split; [exact T|]. now apply (outside_V _ k).
Qed.

(* an attempt is over only as long as its end is still to come *)
Lemma over_turns0 : forall e s, (g_try s = Replaying -> In Over (g_todo s)) -> g_try (feed e s) = Replaying -> In Over (g_todo (feed e s)).
Proof.
  intros e s H.
  assert (Hh : g_try (hand c e s) = Replaying -> In Over (g_todo (hand c e s))).
  { unfold hand. destruct (g_wait s) as [w|]; [|exact H]. destruct (passes w e); [exact H|]. destruct (verdict w e) as [d|]; [|exact H].
    destruct d; try exact H; cbn [g_try g_todo]; intros X; apply in_or_app; right; exact (H X). }
  assert (Hc : forall a, g_try (conclude a s) = Replaying -> In Over (g_todo (conclude a s))).
  { intros a. unfold conclude. destruct (a_found a) as [[ch dl]|].
    - destruct (place_where _ _); [|exact H]. intros _. cbn [g_todo]. right. apply in_or_app. right. now left.
    - intros _. cbn [g_todo]. apply in_or_app. right. now left. }
  assert (Hk : forall q o t s', consider c q o t s = Some s' -> g_try s' = Replaying -> In Over (g_todo s')).
  { intros q o t s'. unfold consider. destruct (best c (g_m s) q), (more c (g_m s) q); intros X; try discriminate X; injection X as <-; try discriminate.
    destruct (_ =? _)%Z; [apply Hc|discriminate]. }
  unfold feed_all. cbv zeta. destruct (if _ && _ then _ else _) as [i|].
  - cbn [g_try g_todo]. intros X. specialize (H X). destruct (filter _ _); [now right|exact H].
  - destruct (g_try s) as [| |a|a] eqn:Et.
    + destruct (_ =? _)%N; [exact Hh|]. destruct (consider c [e] None (ev_time e) s) as [s'|] eqn:Cn; [|exact Hh]. exact (Hk _ _ _ _ Cn).
    + exact Hh.
    + destruct (_ =? _)%N.
      * destruct (_ <=? _)%Z; [|exact Hh]. destruct (a_found a); [|apply Hc]. destruct (0 <? _)%Z; [discriminate|apply Hc].
      * destruct (ev_pressed e); [|apply Hc]. destruct (consider c _ (a_found a) (ev_time e) s) as [s'|] eqn:Cn; [|apply Hc]. exact (Hk _ _ _ _ Cn).
    + destruct (_ =? _)%N.
      * destruct (_ <=? _)%Z; [apply Hc|exact Hh].
      * destruct (ev_pressed e); [discriminate|]. destruct (a_found a) as [[ch li]|]; [|discriminate]. destruct (existsb _ _); [apply Hc|discriminate].
Qed.
Lemma over_turns l : g_try (turns_all c l) = Replaying -> In Over (g_todo (turns_all c l)).
Proof.
  unfold turns_all. induction l as [|i l IH] using rev_ind; [discriminate|].
  rewrite fold_left_app. cbn [fold_left]. set (s := fold_left act l (start_all c)) in *. clearbody s. unfold act_all.
  destruct i as [e| |t].
  - destruct (g_todo s) as [|x r] eqn:Et; [|rewrite Et; exact IH]. apply over_turns0. rewrite Et. exact IH.
  - destruct (g_todo s) as [|[e0|e0|] r] eqn:Et; [rewrite Et; exact IH| | |discriminate].
    + apply over_turns0. cbn [g_todo pop g_try]. intros X. destruct (IH X) as [Y|Y]; [discriminate Y|exact Y].
    + apply over_turns0. cbn [g_todo pop g_try]. intros X. destruct (IH X) as [Y|Y]; [discriminate Y|exact Y].
  - destruct (g_todo s) as [|[e0|e0|] r] eqn:Et; try (rewrite Et; exact IH). destruct (_ <=? _)%Z; [|rewrite Et; exact IH]. apply over_turns0. rewrite Et. exact IH.
Qed.
(* no oneshot keys: no bound *)
Definition unshot (s : full) : Prop :=
  shotless (g_m s) /\ (forall w, g_wait s = Some w -> ~ oneshot_action (w_tap w) /\ ~ oneshot_action (w_hold w))
  /\ (forall p, In p (g_places s) -> ~ oneshot_action (q_do p))
  /\ match g_try s with
     | Open a | Kept a => match a_found a with Some (ch, _) => ~ oneshot_action (ch_d ch) | None => True end
     | _ => True
     end.
Hypothesis Nc : no_oneshots c.
Hypothesis Nk : forall i ch, In ch (ly_chords (the c i)) -> ~ oneshot_action (ch_d ch).
Lemma unshot_hand e s : unshot s -> unshot (hand c e s).
Proof.
  intros (S0 & Hw & Hp & Ht). pose proof S0 as [S1 S2]. pose proof Nc as [N1 N2].
  assert (Wt : forall code d dl t w, waits c code d dl t = Some w -> ~ oneshot_action (w_tap w) /\ ~ oneshot_action (w_hold w)).
  { intros code d dl t w. destruct d; cbn [waits]; intros X; try discriminate X; injection X as <-; cbn [w_tap w_hold]; split; try apply N2; intros []. }
  assert (Pk : forall m code, ~ oneshot_action (fst (pick c (g_places s) m code))).
  { intros m code. unfold pick. destruct (_ && _); [|now apply choose_shotless]. cbn [fst].
    destruct (nth_in_or_default (N.to_nat (code - 197)) (g_places s) free) as [I|X]; [apply Hp, I|]. rewrite X. intros []. }
  assert (St : shotless (step_by c (pick c (g_places s)) (g_m s) e)) by (apply shotless_step_as; assumption).
  unfold hand. destruct (g_wait s) as [w|] eqn:Ew.
  - destruct (Hw w eq_refl) as [H1 H2]. destruct (passes w e); [split; [exact St|]; split; [intros w0 X; injection X as <-; auto|auto]|].
    assert (Ext : unshot (Full (g_m s) (Some (extend w e)) (g_try s) (g_places s) (g_todo s))).
    { split; [exact S0|]. split; [|auto]. intros w0 X. injection X as <-. unfold extend. destruct (_ =? _)%N; auto. }
    assert (Gv : forall d, verdict w e = Some d -> ~ oneshot_action d).
    { unfold verdict. intros d X. destruct (_ <=? _)%Z; [injection X as <-; assumption|]. destruct (ev_code e =? 0)%N; [discriminate X|].
      destruct (ev_code e =? w_code w)%N; [injection X as <-; assumption|].
      destruct (w_rule w), (ev_pressed e); try discriminate X; injection X as <-; assumption. }
    destruct (verdict w e) as [d|]; [|exact Ext]. specialize (Gv d eq_refl). cbv zeta. set (m1 := forget (w_code w) (g_m s)). set (d' := settle c d (ev_time e) m1).
    set (s' := Full (begin_key c (w_code w) d' (w_layer w) (ev_time e) m1) _ _ _ _).
    assert (D : unshot s').
    { split; [|split; [intros w0; apply Wt|auto]]. apply shotless_begin; [now apply shotless_settle|exact S1|].
      intros h Hh. apply S2. unfold m1, forget in Hh. cbn [m_held with_held] in Hh. now apply filter_In in Hh. }
    destruct d; first [exact Ext|exact D].
  - split; [exact St|]. split; [|auto]. cbn [g_wait]. intros w. unfold begins_by. cbv zeta. destruct (_ =? _)%N; [discriminate|].
    destruct (ev_pressed e); [|discriminate]. destruct (holding _ _); [discriminate|]. destruct (Nat.ltb _ _); [|discriminate]. destruct (pick _ _ _ _). apply Wt.
Qed.
Lemma unshot_places i p r s : unshot s -> ~ oneshot_action (q_do p) -> unshot (Full (g_m s) (g_wait s) (g_try s) (upd i p (g_places s)) r).
Proof.
  intros (S0 & Hw & Hp & Ht) Np. split; [exact S0|]. split; [exact Hw|]. split; [|exact Ht]. cbn [g_places]. clear - Hp Np. revert i.
  induction (g_places s) as [|x ps IH]; intros [|i] q; cbn [upd]; try (intros []; fail).
  - intros [<-|I]; [exact Np|apply Hp; now right].
  - intros [<-|I]; [apply Hp; now left|]. apply IH in I; [exact I|]. intros y Hy. apply Hp. now right.
Qed.
Definition unshot_att (a : attempt) : Prop := match a_found a with Some (ch, _) => ~ oneshot_action (ch_d ch) | None => True end.
Lemma unshot_try x s : unshot s -> (match x with Open a | Kept a => unshot_att a | _ => True end) -> unshot (trying_now x s).
Proof. intros (S0 & Hw & Hp & Ht) Hx. split; [exact S0|]. split; [exact Hw|]. split; [exact Hp|]. exact Hx. Qed.
Lemma unshot_conclude a s : unshot s -> unshot_att a -> unshot (conclude a s).
Proof.
  intros H Ha. unfold conclude, unshot_att in *. pose proof (unshot_try Replaying s H Logic.I) as H1. destruct (a_found a) as [[ch dl]|]; [|exact H1].
  destruct (place_where _ _); [|exact H]. exact (unshot_places n (Place (ch_keys ch) (ch_d ch) dl) [] _ H1 Ha).
Qed.
Lemma unshot_give_up q s : unshot s -> unshot (give_up q s).
Proof. intros H. apply unshot_conclude; [exact H|exact Logic.I]. Qed.
Lemma unshot_consider q old t s s' : unshot s -> (match old with Some (ch, _) => ~ oneshot_action (ch_d ch) | None => True end) ->
  consider c q old t s = Some s' -> unshot s'.
Proof.
  intros H Ho. unfold consider.
  assert (Hf : unshot_att (Attempt q (match best c (g_m s) q with Some b => Some b | None => old end) t)).
  { unfold unshot_att. cbn [a_found]. unfold best. destruct (find _ (order (g_m s))) as [i|]; [|exact Ho]. destruct (find (complete q) _) as [ch|] eqn:F; [|exact Ho].
    cbn [option_map]. apply find_some in F as [F _]. apply in_rev in F. exact (Nk i ch F). }
  set (found := match best c (g_m s) q with Some b => Some b | None => old end) in *. clearbody found.
  destruct (best c (g_m s) q), (more c (g_m s) q); intros X; try discriminate X; injection X as <-; try (apply unshot_try; assumption).
  destruct (_ =? _)%Z; [apply unshot_conclude|apply unshot_try]; assumption.
Qed.
Lemma unshot_feed e s : unshot s -> unshot (feed e s).
Proof.
  intros H. pose proof H as (_ & _ & Hp & Ht). unfold feed_all. cbv zeta. destruct (if _ && _ then _ else _) as [i|].
  - apply (unshot_places i (Place _ _ _)); [exact H|]. cbn [q_do]. destruct (nth_in_or_default i (g_places s) free) as [I|X]; [apply Hp, I|]. rewrite X. intros [].
  - destruct (g_try s) as [| |a|a] eqn:Et.
    + destruct (_ =? _)%N; [now apply unshot_hand|]. destruct (consider c [e] None (ev_time e) s) as [s'|] eqn:Cn; [|now apply unshot_hand].
      eapply unshot_consider; [exact H| |exact Cn]. exact Logic.I.
    + now apply unshot_hand.
    + destruct (_ =? _)%N.
      * destruct (_ <=? _)%Z; [|now apply unshot_hand]. destruct (a_found a) eqn:Fo; [|now apply unshot_give_up].
        assert (Ha : unshot_att a) by (unfold unshot_att; rewrite Fo; exact Ht).
        destruct (0 <? _)%Z; [apply unshot_try|apply unshot_conclude]; try assumption; exact Ha.
      * destruct (ev_pressed e); [|now apply unshot_give_up]. destruct (consider c _ (a_found a) (ev_time e) s) as [s'|] eqn:Cn; [|now apply unshot_give_up].
        eapply unshot_consider; [exact H|exact Ht|exact Cn].
    + destruct (_ =? _)%N.
      * destruct (_ <=? _)%Z; [apply unshot_conclude; assumption|now apply unshot_hand].
      * assert (K : unshot (trying_now (Kept (Attempt (a_queue a ++ [e]) (a_found a) (a_last a))) s)) by (apply unshot_try; [exact H|exact Ht]).
        destruct (ev_pressed e); [exact K|]. destruct (a_found a) as [[ch li]|]; [|exact K]. destruct (existsb _ _); [now apply unshot_give_up|exact K].
Qed.
Lemma unshot_turns l : unshot (turns_all c l).
Proof.
  unfold turns_all. induction l as [|i l IH] using rev_ind.
  { split; [split; [reflexivity|intros h []]|]. split; [discriminate|]. split; [|exact Logic.I]. intros p [<-|[<-|[<-|[]]]]; intros []. }
  rewrite fold_left_app. cbn [fold_left]. set (s := fold_left act l (start_all c)) in *. clearbody s. unfold act_all.
  destruct i as [e| |t]; destruct (g_todo s) as [|[e0|e0|] r]; try exact IH; try (apply unshot_feed; exact IH).
  - exact (unshot_try Calm s IH Logic.I).
  - destruct (_ <=? _)%Z; [now apply unshot_feed|exact IH].
Qed.
End Full.
