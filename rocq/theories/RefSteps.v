(* Proofs for C69: the actions and the events. *)
From Verif Require Import Base Lib Keys Types MacroExec Kbd Steps Hist SpecMods SpecLookup SpecDefer Outside ActProofs ModsProofs LookupProofs
  ClassInv StepProofs Engine OneProofs Inv SpecRef RefProofs.
From Coq Require Import Permutation Sorting.Sorted.
Local Open Scope nat_scope.

Section Ref.
Variable c : config.
Variable pe : fringe.
Variable vw : N -> desc -> desc.
Notation S_ := (S_ c pe vw).
Notation used := (used vw).
Notation sim := (sim c pe vw).
Notation rest := (rest c pe vw).

Ltac frame H := destruct H as [?A ?R]; split; [exact A|destruct R; constructor; assumption].
Lemma S_timeouts m k v : S_ m k -> S_ m (set_k_timeouts v k).
Proof. intros H. frame H. Qed.
Lemma S_simple m k v : S_ m k -> S_ (with_simple v m) (set_k_last_simple v k).
Proof. intros [A R]. split; [exact A|]. destruct R. constructor; try assumption; reflexivity. Qed.
Lemma S_scroll m k v : S_ m k -> S_ m (set_k_scroll v k).
Proof. intros H. frame H. Qed.
Lemma S_struck m k v : S_ m k -> S_ (with_struck v m) (set_k_last_code v k).
Proof. intros [A R]. split; [exact A|]. destruct R. constructor; try assumption; reflexivity. Qed.
Lemma S_emit m k o : S_ m k -> S_ (with_host (say o (m_host m)) m) (emit o k).
Proof. intros [A R]. split; [cbn [m_host with_host]; rewrite A; reflexivity|]. destruct R. constructor; assumption. Qed.
Lemma S_since m k v : S_ m k -> S_ (with_since v m) (set_k_ovl_start v k).
Proof. intros [A R]. split; [exact A|]. destruct R. constructor; try assumption; reflexivity. Qed.
Lemma schedule_S m k t k' : S_ m k -> schedule_timeout k t = Ok k' -> S_ m k'.
Proof. intros H E. apply schedule_ok in E. subst k'. now apply S_timeouts. Qed.

(* sizes *)
Lemma used_length ca : length (used ca) <= length ca.
Proof. unfold used. rewrite map_length. induction ca as [|e ca IH]; cbn [filter length]; [lia|]. destruct (negb _); cbn [length]; lia. Qed.
Lemma held_size a x m k : rest a x m k -> length (m_held m) <= 16.
Proof.
  intros R. rewrite <- (Permutation_length (r_used _ _ _ _ _ _ _ _ _ _ _ _ _ _ _ _ _ _ R)). rewrite <- (r_size _ _ _ _ _ _ _ _ _ _ _ _ _ _ _ _ _ _ R).
  apply used_length.
Qed.
Lemma filter_le {A} (f : A -> bool) l : length (filter f l) <= length l.
Proof. induction l as [|x l IH]; cbn; [lia|]. destruct (f x); cbn; lia. Qed.
Lemma occ_le l i : count_occ Nat.eq_dec l i <= length l.
Proof. induction l as [|x l IH]; cbn; [lia|]. destruct (Nat.eq_dec x i); lia. Qed.
Lemma count_small a x m k i : rest a x m k -> length (m_shots m) < 200 -> count m i < 255.
Proof.
  intros R L. apply held_size in R. unfold count. pose proof (filter_le (kept_by i) (m_held m)). pose proof (occ_le (m_shots m) i).
  assert (B : forall b, b2 b <= 1) by (intros []; cbn; lia). pose proof (B (mem i (m_locked m))). pose proof (B (Nat.eqb i 0)).
  pose proof (B (Nat.eqb i (m_layout m) && negb (Nat.eqb i 0))). lia.
Qed.

(* ---- actions that keep no layer on -------------------------------------------------- *)
Lemma macro_the k n mm : k_cfg k = c -> macro_at k n = Ok mm -> mm = the_macro c n.
Proof. intros Ec Em. unfold macro_at in Em. rewrite Ec in Em. destruct (Nat.ltb _ _); [|discriminate]. now apply Ok_inj in Em. Qed.
Lemma macro_sim m k n t r dl time k' : S_ m k -> m_repeat m = None ->
  pd_macro k n t r dl true time = Ok k' -> S_ (start_macro c n t r dl time m) k'.
Proof.
  intros H Hr E. unfold pd_macro in E. bstep E mm Em. bstep E k1 E1.
  assert (H0 : S_ m (set_k_repeat r k)).
  { destruct H as [A R]. split; [exact A|]. destruct R. constructor; try assumption. rewrite Hr in *. exact r_repeat. }
  assert (Ec : k_cfg k = c) by (exact (r_cfg _ _ _ _ _ _ _ _ _ _ _ _ _ _ _ _ _ _ (proj2 H))).
  apply (macro_the _ _ _ Ec) in Em. subst mm.
  assert (Kr : k_repeat k1 = r). { apply clear_oneshot_ok in E1 as [? [? [-> _]]]. reflexivity. }
  apply (clear_oneshot_sim c pe vw m) in E1; [|exact H0]. apply (S_type c pe vw _ _ dl (the_macro c n)) in E1.
  assert (Kr2 : k_repeat (execute_macro k1 dl (the_macro c n)) = r).
  { destruct (execute_macro_only k1 dl (the_macro c n)) as [? [? [? ->]]]. exact Kr. }
  unfold start_macro. cbv zeta in E. eapply schedule_S; [|exact E]. destruct E1 as [A R]. split; [exact A|].
  destruct R. constructor; try assumption. cbn [m_repeat with_repeat]. auto.
Qed.
Lemma key_sim m k x mods dl t k' : S_ m k -> pd_key k x mods dl true t = Ok k' -> S_ (press_key c x mods dl t m) k'.
Proof.
  intros H E. unfold pd_key in E. bstep E k1 E1. unfold press_key.
  assert (X : S_ (if o_down (m_host m) x then strike x false m else m) (if k_ks k x then send_key k x false else k)).
  { rewrite (proj1 H). cbn [host_of o_down]. destruct (k_ks k x); [now apply S_strike|exact H]. }
  apply (S_adjust c pe vw _ _ false (Some dl) mods) in X. apply (S_strike c pe vw _ _ x true) in X. cbv zeta.
  eapply clear_oneshot_sim in E1; [|exact X]. apply Ok_inj in E. subst k'. unfold typed. change MOD_SHIFT with 4%N. destruct (_ || _); [now apply S_simple|exact E1].
Qed.
Lemma flip_sim m k code l k' : S_ m k -> length (m_shots m) < 200 -> l <> 0 -> a_layer c l -> swapping c = false ->
  pd_toggle k code l true = Ok k' -> S_ (flip c l m) k'.
Proof.
  intros H L H0 Al Ns E. unfold pd_toggle in E. bstep E u Eu. clear Eu u. cbv zeta in E. bstep E k2 E2.
  unfold flip. cbv zeta.
  assert (X : S_ (if mem l (m_locked m) then tell c l false (with_locked (without l (m_locked m)) m) else turn_on c l (with_locked (l :: m_locked m) m)) k2).
  { pose proof (r_tog _ _ _ _ _ _ _ _ _ _ _ _ _ _ _ _ _ _ (proj2 H) l) as T. rewrite T in E2. destruct (mem l (m_locked m)) eqn:M; cbn [negb] in E2.
    - now apply (unlock_sim c pe vw m k l k2 H M).
    - apply (activate_sim c pe vw (count m) 0%N) with (m := with_locked (l :: m_locked m) m) in E2; [exact E2| | |exact Al| |now left|congruence].
      + destruct H as [H R]. split; [exact H|]. destruct R. unfold rest, RefProofs.rest.
        cbn [m_held m_seats m_locked m_shots m_recent m_layout m_armed m_until m_since m_struck m_repeat m_simple with_locked].
        assert (F : forall j, l_active (k_ls (set_lsi l (set_l_toggled true (k_ls k l)) k) j) = l_active (k_ls k j)
          /\ l_time (k_ls (set_lsi l (set_l_toggled true (k_ls k l)) k) j) = l_time (k_ls k j)
          /\ l_depth (k_ls (set_lsi l (set_l_toggled true (k_ls k l)) k) j) = l_depth (k_ls k j)).
        { intros j. cbn [k_ls set_lsi set_k_ls]. unfold nupd. destruct (Nat.eqb_spec j l) as [Ej|]; [subst j|]; auto. }
        constructor; try assumption; try (intros j; destruct (F j) as (T1 & T2 & T3); rewrite ?T1, ?T2, ?T3; auto; fail).
        * congruence.
        * intros j. cbn [k_ls set_lsi set_k_ls]. unfold nupd. unfold mem. cbn [existsb]. fold (mem j (m_locked m)).
          destruct (Nat.eqb_spec j l) as [Ej|]; [reflexivity|]. apply r_tog.
        * intros j Hj. unfold mem in Hj. cbn [existsb] in Hj. fold (mem j (m_locked m)) in Hj. apply orb_true_iff in Hj as [Hj|Hj].
          -- apply Nat.eqb_eq in Hj. subst j. auto.
          -- auto.
        * eapply sorted_weak; [|exact r_sorted]. intros x y _ _. destruct (F x) as (_ & -> & _), (F y) as (_ & -> & _). auto.
        * destruct (F (m_layout m)) as (_ & -> & _). exact r_base.
      + intros j. unfold bump, count. cbn [m_held m_seats m_locked m_shots m_layout with_locked]. change (mem j (l :: m_locked m)) with (Nat.eqb j l || mem j (m_locked m)).
        destruct (Nat.eqb_spec j l) as [Ej|Hn]; [subst j; rewrite M; cbn [b2 orb]; lia|]. cbn [orb]. lia.
      + apply (count_small (count m) 0%N m k); [apply H|exact L]. }
  apply (S_adjust c pe vw _ _ false None 0) in X. eapply clear_oneshot_sim in E; [|exact X]. exact E.
Qed.
(* ---- swap ------------------------------------------------------------------------------ *)
Lemma S_ls m k g : S_ m k -> (forall i, g i = k_ls k i) -> S_ m (set_k_ls g k).
Proof.
  intros [A R] G. split; [exact A|]. destruct R. constructor; try assumption; cbn [k_ls set_k_ls k_clock];
    try (intros i; rewrite G; auto; fail).
  - eapply sorted_weak; [|exact r_sorted]. intros x y _ _. now rewrite !G.
  - now rewrite G.
Qed.
Lemma shot_on_by m k code l k3 : S_ m k -> length (m_shots m) < 200 -> a_layer c l -> (forall d e, ~ In (code, (d, e)) (m_held m)) -> activate_layer k code l = Ok k3 ->
  S_ (turn_on c l (with_shots (l :: m_shots m) m)) (set_lsi l (set_l_depth ((l_depth (k_ls k3 l) + 1) mod 256) (k_ls k3 l)) k3).
Proof.
  intros H L Al Nh E. set (v := ((l_depth (k_ls k l) + 1) mod 256)%N). set (k2 := set_lsi l (set_l_depth v (k_ls k l)) k).
  assert (Dl : l_depth (k_ls k3 l) = l_depth (k_ls k l)).
  { unfold activate_layer in E. bstep E u Eu. apply Ok_inj in E. subst k3. cbn [k_ls emit set_k_out set_k_cache set_k_clock set_lsi set_k_ls]. unfold nupd. now rewrite Nat.eqb_refl. }
  assert (F : forall j, l_active (k_ls k2 j) = l_active (k_ls k j) /\ l_time (k_ls k2 j) = l_time (k_ls k j) /\ l_toggled (k_ls k2 j) = l_toggled (k_ls k j)).
  { intros j. unfold k2. cbn [k_ls set_lsi set_k_ls]. unfold nupd. destruct (Nat.eqb_spec j l) as [Ej|]; [subst j|]; auto. }
  assert (X : sim (count m) 0%N (with_shots (l :: m_shots m) m) k2).
  { destruct H as [A R]. split; [exact A|]. destruct R. unfold RefProofs.rest.
    cbn [m_held m_seats m_locked m_shots m_recent m_layout m_armed m_until m_since m_struck m_repeat m_simple with_shots].
    constructor; try assumption; try (intros j; destruct (F j) as (T1 & T2 & T3); rewrite ?T1, ?T2, ?T3; auto; fail).
    + intros j. cbn [count_occ]. unfold k2. cbn [k_ls set_lsi set_k_ls]. unfold nupd. destruct (Nat.eqb_spec j l) as [Ej|Nj].
      * subst j. cbn [l_depth set_l_depth]. unfold v. rewrite r_shot. pose proof (occ_le (m_shots m) l). destruct (Nat.eq_dec l l); [|contradiction].
        rewrite N.mod_small; lia.
      * rewrite r_shot. destruct (Nat.eq_dec l j); [congruence|reflexivity].
    + intros j [Hj|Hj]; [now subst j|auto].
    + eapply sorted_weak; [|exact r_sorted]. intros x y _ _. destruct (F x) as (_ & -> & _), (F y) as (_ & -> & _). auto.
    + destruct (F (m_layout m)) as (_ & -> & _). exact r_base. }
  assert (E2 : exists k4, activate_layer k2 code l = Ok k4 /\ set_lsi l (set_l_depth ((l_depth (k_ls k3 l) + 1) mod 256) (k_ls k3 l)) k3
     = set_k_ls (nupd (k_ls k3) l (set_l_depth v (k_ls k3 l))) k4 /\ forall i, nupd (k_ls k3) l (set_l_depth v (k_ls k3 l)) i = k_ls k4 i).
  { rewrite Dl. fold v. clear Dl. unfold activate_layer in E |- *. destruct (chk_layer l) as [u| | |]; cbn [bind] in E |- *; try discriminate E.
    apply Ok_inj in E. eexists. split; [reflexivity|]. subst k3.
    assert (I : forall a b : kbd, k_cfg a = k_cfg b -> (forall i, l_active (k_ls a i) = l_active (k_ls b i)) -> indicator a = indicator b).
    { clear. intros a b Ec La. unfold indicator, nlayers, layer_at, is_active. rewrite Ec. induction (seq 1 _) as [|i r IH]; cbn [existsb]; [reflexivity|]. now rewrite La, IH. }
    split.
    - match goal with |- context [indicator ?a] => match goal with |- context [OLayer l true (indicator ?b)] => idtac end end.
      unfold set_lsi at 1. match goal with |- set_k_ls _ (emit (OLayer l true (indicator ?a)) ?a') = set_k_ls _ (emit (OLayer l true (indicator ?b)) ?b') =>
        rewrite (I b a); [reflexivity|reflexivity|] end.
      intros i. cbn [k_ls set_k_cache set_k_clock set_lsi set_k_ls]. unfold nupd. destruct (Nat.eqb i l); [|now destruct (F i)].
      unfold k2. cbn [k_ls set_lsi set_k_ls]. unfold nupd. now rewrite Nat.eqb_refl.
    - intros i. cbn [k_ls emit set_k_out set_k_cache set_k_clock set_lsi set_k_ls k2]. unfold nupd. rewrite !Nat.eqb_refl. destruct (Nat.eqb i l); reflexivity. }
  destruct E2 as (k4 & E4 & -> & G). apply S_ls; [|exact G].
  apply (activate_sim c pe vw (count m) 0%N) with (m := with_shots (l :: m_shots m) m) in E4; [exact E4|exact X| |exact Al| |now left|].
  - intros i. unfold bump, count. cbn [m_held m_seats m_locked m_shots m_layout with_shots count_occ].
    destruct (Nat.eqb_spec i l) as [Ei|Ni]; destruct (Nat.eq_dec l i); try congruence; lia.
  - apply (count_small (count m) 0%N m k); [apply H|exact L].
  - intros _ d dl I. exfalso. exact (Nh d dl I).
Qed.
Lemma shot_on m k l k3 : S_ m k -> length (m_shots m) < 200 -> a_layer c l -> activate_layer k 0 l = Ok k3 ->
  S_ (turn_on c l (with_shots (l :: m_shots m) m)) (set_lsi l (set_l_depth ((l_depth (k_ls k3 l) + 1) mod 256) (k_ls k3 l)) k3).
Proof.
  intros H L Al E. apply (shot_on_by m k 0%N); auto. intros d e I. destruct H as [_ R]. destruct R. apply (Permutation_in _ (Permutation_sym r_used)) in I. unfold RefProofs.used in I.
  apply in_map_iff in I as (x & Ee & I). apply filter_In in I as [_ I]. injection Ee as Ee _ _. rewrite Ee in I. discriminate.
Qed.
Lemma reb_count x d j : forall (h : list (N * (desc * nat))) d0 e0, NoDup (map fst h) -> In (x, (d0, e0)) h ->
  length (filter (kept_by j) (map (fun h => if (fst h =? x)%N then (x, (d, snd (snd h))) else h) h)) + b2 (kept_by j (x, (d0, e0)))
  = length (filter (kept_by j) h) + b2 (kept_by j (x, (d, e0))).
Proof.
  assert (Ot : forall h : list (N * (desc * nat)), ~ In x (map fst h) -> map (fun h => if (fst h =? x)%N then (x, (d, snd (snd h))) else h) h = h).
  { induction h as [|y h IH]; cbn [map In]; intros Nx; [reflexivity|]. destruct (N.eqb_spec (fst y) x); [elim Nx; now left|]. f_equal. apply IH. tauto. }
  induction h as [|y h IH]; intros d0 e0 Nd I; [destruct I|]. cbn [map] in *. inversion_clear Nd as [|? ? N1 N2]. destruct I as [->|I].
  - cbn [fst snd] in *. rewrite N.eqb_refl, (Ot h N1). cbn [filter]. destruct (kept_by j (x, (d0, e0))), (kept_by j (x, (d, e0))); cbn [length b2]; lia.
  - destruct (N.eqb_spec (fst y) x) as [Ey|Ny].
    + exfalso. apply N1. rewrite Ey. apply in_map_iff. exists (x, (d0, e0)). auto.
    + specialize (IH d0 e0 N2 I). cbn [filter]. destruct (kept_by j y); cbn [length]; lia.
Qed.
Lemma reb_keys x d (h : list (N * (desc * nat))) : map fst (map (fun h => if (fst h =? x)%N then (x, (d, snd (snd h))) else h) h) = map fst h.
Proof. rewrite map_map. apply map_ext. intros y. destruct (N.eqb_spec (fst y) x); [now symmetry|reflexivity]. Qed.
(* the remembered action of x is replaced *)
Lemma used_mid e : forall l1 l2, ce_code e <> 0%N -> used (l1 ++ e :: l2) = used l1 ++ (ce_code e, (vw (ce_code e) (ce_d e), ce_dl e)) :: used l2.
Proof. intros l1 l2 Hz. unfold RefProofs.used. rewrite filter_app. cbn [filter]. destruct (N.eqb_spec (ce_code e) 0); [contradiction|]. cbn [negb]. now rewrite map_app. Qed.
Lemma reb_none x d (h : list (N * (desc * nat))) : ~ In x (map fst h) -> map (fun h => if (fst h =? x)%N then (x, (d, snd (snd h))) else h) h = h.
Proof.
  induction h as [|y h IH]; cbn [map In]; intros Nx; [reflexivity|]. destruct (N.eqb_spec (fst y) x); [elim Nx; now left|]. f_equal. apply IH. tauto.
Qed.
Lemma rebind_sim a y m k x d e l1 l2 : sim a y m k -> k_cache k = l1 ++ e :: l2 -> ce_code e = x -> x <> 0%N -> (forall z, vw x z = z) -> settled_action c d ->
  y = 0%N \/ y = x -> sim a x (rebind x d m) (set_k_cache (l1 ++ mkCe x d (ce_dl e) 0 :: l2) k).
Proof.
  intros [A R] Ek Ex Hx Vx Hd Hy. split; [exact A|]. destruct R. unfold RefProofs.rest, rebind.
  cbn [m_held m_seats m_locked m_shots m_recent m_layout m_armed m_until m_since m_struck m_repeat m_simple with_held].
  rewrite Ek, used_mid in r_used by (rewrite Ex; exact Hx).
  assert (Nu : NoDup (map fst (used l1 ++ (ce_code e, (vw (ce_code e) (ce_d e), ce_dl e)) :: used l2)))
    by (eapply Permutation_NoDup; [apply Permutation_map, Permutation_sym, r_used|exact r_nodup]).
  rewrite map_app in Nu. cbn [map fst] in Nu. apply NoDup_remove_2 in Nu. rewrite Ex, in_app_iff in Nu.
  constructor; try assumption; cbn [k_cache set_k_cache].
  - rewrite <- r_seats, Ek, !map_app. cbn [map ce_code]. now rewrite Ex.
  - intros Sw e' I Hz. apply in_app_iff in I. destruct I as [I|[<-|I]].
    3: specialize (r_marks Sw e'). 1: specialize (r_marks Sw e').
    1,3: (rewrite Ek in r_marks; rewrite r_marks; [|rewrite in_app_iff; cbn [In]; tauto|exact Hz];
      assert (Ne : ce_code e' <> x) by (intros Ee; apply Nu; [left + right]; rewrite <- Ee; unfold RefProofs.used; rewrite map_map; apply in_map_iff; exists e';
        split; [reflexivity|]; apply filter_In; split; [exact I|]; now destruct (N.eqb_spec (ce_code e') 0)); idtac).
    + destruct (N.eqb_spec (ce_code e') x); [contradiction|]. destruct (N.eqb_spec (ce_code e') y); [|reflexivity]. destruct Hy; congruence.
    + destruct (N.eqb_spec (ce_code e') x); [contradiction|]. destruct (N.eqb_spec (ce_code e') y); [|reflexivity]. destruct Hy; congruence.
    + cbn [ce_code ce_layer]. now rewrite N.eqb_refl.
  - rewrite used_mid by exact Hx. cbn [ce_code ce_d ce_dl]. rewrite Vx.
    apply (Permutation_map (fun h => if (fst h =? x)%N then (x, (d, snd (snd h))) else h)) in r_used.
    rewrite map_app in r_used. cbn [map fst snd] in r_used. rewrite Ex, N.eqb_refl, !reb_none in r_used by tauto. exact r_used.
  - now rewrite reb_keys.
  - rewrite app_length in *. cbn [length] in *. rewrite Ek, app_length in r_size. exact r_size.
  - intros h I. apply in_map_iff in I as (h0 & <- & I). destruct (fst h0 =? x)%N; [exact Hd|auto].
Qed.
Lemma set_layer_mid l e : forall l1 l2, ~ In (ce_code e) (map ce_code l1) ->
  set_ce_layer (l1 ++ e :: l2) (ce_code e) l = l1 ++ mkCe (ce_code e) (ce_d e) (ce_dl e) l :: l2.
Proof.
  induction l1 as [|e1 l1 IH]; intros l2 Nx; cbn [app]; rewrite set_layer_cons; [now rewrite N.eqb_refl|].
  cbn [map In] in Nx. destruct (N.eqb_spec (ce_code e1) (ce_code e)); [tauto|]. rewrite IH by tauto. reflexivity.
Qed.
Lemma slot_find k dl (P : N -> bool) : forall ca i, 
  (forall e, In e ca -> P (ce_code e) = negb (ce_code e =? 0)%N && Nat.eqb (ce_layer e) dl && is_normal (ly_type (layer_at k (ce_layer e))) && negb (Nat.eqb (ce_layer e) 0)) ->
  match swap_slot k ca dl i with
  | None => find P (map ce_code ca) = None
  | Some j => exists l1 e l2, ca = l1 ++ e :: l2 /\ j = i + length l1 /\ find P (map ce_code ca) = Some (ce_code e) /\ P (ce_code e) = true
  end.
Proof.
  induction ca as [|e ca IH]; intros i HP; cbn [swap_slot map find]; [reflexivity|]. pose proof (HP e (or_introl eq_refl)) as He. rewrite <- He.
  destruct (P (ce_code e)) eqn:Pe.
  - exists [], e, ca. cbn [app length]. repeat split; auto; lia.
  - specialize (IH (S i) (fun e' I => HP e' (or_intror I))). destruct (swap_slot k ca dl (S i)) as [j|]; [|exact IH].
    destruct IH as (l1 & e' & l2 & -> & -> & IH). exists (e :: l1), e', l2. cbn [app length]. split; [reflexivity|]. split; [lia|exact IH].
Qed.
Lemma fst_inj {A B} : forall (l : list (A * B)) a b, NoDup (map fst l) -> In a l -> In b l -> fst a = fst b -> a = b.
Proof.
  induction l as [|y l IH]; intros a b Nd Ia Ib Ef; [destruct Ia|]. cbn [map] in Nd. inversion_clear Nd as [|? ? N1 N2].
  destruct Ia as [<-|Ia], Ib as [<-|Ib]; auto; exfalso; apply N1; [rewrite Ef|rewrite <- Ef]; now apply in_map.
Qed.
Lemma upd_split {A} (y z : A) : forall l1 l2, upd (length l1) y (l1 ++ z :: l2) = l1 ++ y :: l2.
Proof. induction l1 as [|x l1 IH]; intros l2; cbn [length app upd]; [reflexivity|]. now rewrite IH. Qed.
Lemma reb_twice x d d' m : rebind x d (rebind x d' m) = rebind x d m.
Proof.
  unfold rebind. cbn [m_held with_held]. rewrite map_map.
  match goal with |- with_held ?a (with_held _ m) = with_held ?b m => replace a with b; [reflexivity|] end.
  apply map_ext. intros h. destruct (N.eqb_spec (fst h) x) as [Ef|Nf]; cbn [fst snd]; [now rewrite N.eqb_refl|]. now destruct (N.eqb_spec (fst h) x).
Qed.
Lemma keeps_layer d l : keeps d = Some l -> settled_action c d -> a_layer c l.
Proof.
  intros K [S|S]; destruct d; cbn [keeps] in K; try discriminate K; injection K as <-; cbn [sure_action plain_action late_action] in S; tauto.
Qed.
Lemma swap_sim m k code l dl k' : S_ m k -> length (m_shots m) < 200 -> a_layer c l -> swapping c = true ->
  (forall x y, x <> code -> vw x y = y) -> (forall d e, In (code, (d, e)) (m_held m) -> keeps d = None) ->
  do_swap k dl l = Ok k' -> S_ (swap_to c l dl m) k'.
Proof.
  intros H L Al Sw Vw Own E. unfold do_swap in E. bstep E u1 Eu1. bstep E u2 Eu2. clear u1 u2 Eu1 Eu2.
  pose proof (proj2 H) as R. assert (Ec : k_cfg k = c) by (destruct R; assumption).
  assert (Tg : l_toggled (k_ls k dl) = false) by (destruct R; rewrite r_tog, (r_unlocked Sw); reflexivity). rewrite Tg in E.
  assert (Dp : (l_depth (k_ls k dl) =? 0)%N = negb (mem dl (m_shots m))).
  { assert (l_depth (k_ls k dl) = N.of_nat (count_occ Nat.eq_dec (m_shots m) dl)) as -> by (destruct R; auto).
    pose proof (count_occ_In Nat.eq_dec (m_shots m) dl) as Ci. pose proof (mem_In dl (m_shots m)) as Mi.
    destruct (N.eqb_spec (N.of_nat (count_occ Nat.eq_dec (m_shots m) dl)) 0), (mem dl (m_shots m)); cbn [negb]; try reflexivity.
    - assert (In dl (m_shots m)) by now apply Mi. apply Ci in H0. lia.
    - assert (In dl (m_shots m)) by (apply Ci; lia). apply Mi in H0. discriminate. }
  rewrite Dp, negb_involutive in E. unfold swap_to. destruct (mem dl (m_shots m)) eqn:Ms; cbv zeta.
  - apply mem_In in Ms. assert (Ad : a_layer c dl) by (destruct R; auto). bstep E k1 E1. cbv zeta in E.
    assert (S1 : S_ (end_shot c m dl) (set_lsi dl (set_l_depth (l_depth (k_ls k1 dl) - 1) (k_ls k1 dl)) k1)) by (now apply (end_shot_sim c pe vw m k dl k1)).
    bstep E k3 E3. cbv zeta in E. apply Ok_inj in E. subst k'. apply S_adjust.
    eapply shot_on; [exact S1| |exact Al|exact E3]. rewrite shots_end_shot. clear - L.
    assert (length (remove_one dl (m_shots m)) <= length (m_shots m)); [|lia]. induction (m_shots m) as [|x r IHr]; cbn [remove_one length]; [lia|]. destruct (Nat.eqb x dl); cbn [length] in *; lia.
  - unfold keeper. set (P := fun x => existsb (fun h => (fst h =? x)%N && kept_by dl h) (m_held m)).
    assert (Pu : forall x d e, In (x, (d, e)) (m_held m) -> P x = kept_by dl (x, (d, e))).
    { intros x d e I. unfold P. destruct (kept_by dl (x, (d, e))) eqn:Kb.
      - apply existsb_exists. exists (x, (d, e)). split; [exact I|]. cbn [fst]. now rewrite N.eqb_refl.
      - apply Bool.not_true_iff_false. intros Ex. apply existsb_exists in Ex as (h & I' & Hb). apply andb_true_iff in Hb as [Hb1 Hb2]. apply N.eqb_eq in Hb1.
        assert (h = (x, (d, e))) by (apply (fst_inj (m_held m)); auto; now destruct R). subst h. congruence. }
    assert (Pz : P 0%N = false).
    { apply Bool.not_true_iff_false. intros Ex. apply existsb_exists in Ex as (h & I & Hb). apply andb_true_iff in Hb as [Hb1 _]. apply N.eqb_eq in Hb1.
      destruct R. apply (Permutation_in _ (Permutation_sym r_used)) in I. apply in_map_iff in I as (e & <- & I). apply filter_In in I as [_ I]. cbn [fst] in Hb1. now rewrite Hb1 in I. }
    assert (Pe : forall e, In e (k_cache k) -> dl <> 0 -> is_normal (ly_type (the c dl)) = true ->
      P (ce_code e) = negb (ce_code e =? 0)%N && Nat.eqb (ce_layer e) dl && is_normal (ly_type (layer_at k (ce_layer e))) && negb (Nat.eqb (ce_layer e) 0)).
    { intros e I D0 Nm. destruct (N.eqb_spec (ce_code e) 0) as [E0|N0]; [now rewrite E0|]. cbn [negb andb].
      rewrite (Pu (ce_code e) (vw (ce_code e) (ce_d e)) (ce_dl e)).
      2:{ destruct R. apply (Permutation_in _ r_used). apply in_map_iff. exists e. split; [reflexivity|]. apply filter_In. split; [exact I|]. now destruct (N.eqb_spec (ce_code e) 0). }
      rewrite (r_marks _ _ _ _ _ _ _ _ _ _ _ _ _ _ _ _ _ _ R Sw e I N0). destruct (N.eqb_spec (ce_code e) 0); [contradiction|].
      unfold kept_by, mark. cbn [fst snd]. destruct (keeps _) as [j|].
      - destruct (Nat.eqb_spec j dl) as [Ej|]; [|reflexivity]. subst j. unfold layer_at. rewrite Ec. change (nth dl (c_layers c) zero_layer) with (the c dl). rewrite Nm.
        destruct (Nat.eqb_spec dl 0); [contradiction|reflexivity].
      - destruct (Nat.eqb_spec 0 dl); [congruence|reflexivity]. }
    destruct (Nat.eqb dl 0 || negb (is_normal (ly_type (the c dl)))) eqn:Nk.
    + assert (Sn : forall ca z, swap_slot k ca dl z = None).
      { clear - Nk Ec. induction ca as [|e ca IH]; intros z; cbn [swap_slot]; [reflexivity|].
        match goal with |- (if ?b then _ else _) = _ => destruct b eqn:Eb; [|apply IH] end. exfalso.
        rewrite !andb_true_iff in Eb. destruct Eb as [[[_ B1] B2] B3]. apply Nat.eqb_eq in B1. rewrite B1 in B2, B3. unfold layer_at in B2. rewrite Ec in B2.
        change (nth dl (c_layers c) zero_layer) with (the c dl) in B2. rewrite B2 in Nk. apply negb_true_iff in B3. rewrite B3 in Nk. discriminate. }
      rewrite Sn in E. apply Ok_inj in E. now subst k'.
    + apply orb_false_iff in Nk as [D0 Nm]. apply Nat.eqb_neq in D0. apply negb_false_iff in Nm.
      pose proof (slot_find k dl P (k_cache k) 0 (fun e I => Pe e I D0 Nm)) as SF.
      assert (Es : map ce_code (k_cache k) = m_seats m) by (destruct R; assumption). rewrite Es in SF.
      destruct (swap_slot k (k_cache k) dl 0) as [i|]; [|rewrite SF; apply Ok_inj in E; now subst k'].
      destruct SF as (l1 & e & l2 & Ek & Ei & Fi & Pt). rewrite Fi. cbn [Nat.add] in Ei. subst i. clear Fi Es.
      assert (Ne : nth (length l1) (k_cache k) zero_ce = e) by (rewrite Ek, app_nth2, Nat.sub_diag by lia; reflexivity). rewrite Ne in E. cbv zeta in E.
      set (x := ce_code e) in *. assert (Hx : x <> 0%N) by (intros Ez; rewrite Ez in Pt; congruence).
      assert (Ix : In (x, (vw x (ce_d e), ce_dl e)) (m_held m)).
      { destruct R. apply (Permutation_in _ r_used). rewrite Ek, used_mid by exact Hx. apply in_app_iff. right. now left. }
      assert (Kx : keeps (vw x (ce_d e)) = Some dl).
      { rewrite (Pu _ _ _ Ix) in Pt. unfold kept_by in Pt. cbn [fst snd] in Pt. destruct (keeps _) as [j|]; [|discriminate]. apply Nat.eqb_eq in Pt. now subst j. }
      assert (Xc : x <> code) by (intros Ex; rewrite Ex in Ix, Kx; apply Own in Ix; congruence).
      assert (Vx : forall z, vw x z = z) by (intros z; now apply Vw).
      assert (Ad : a_layer c dl).
      { apply (keeps_layer (vw x (ce_d e)) dl Kx). destruct R. exact (r_held _ Ix). }
      assert (Cr : forall d m' i, m_held m' = m_held m -> count (rebind x d m') i + b2 (kept_by i (x, (vw x (ce_d e), ce_dl e))) = count m' i + b2 (kept_by i (x, (d, ce_dl e)))).
      { intros d m' i Em. pose proof (reb_count x d i (m_held m) (vw x (ce_d e)) (ce_dl e)) as C. specialize (C ltac:(now destruct R) Ix).
        unfold count, rebind. cbn [m_held m_seats m_locked m_shots m_layout with_held]. rewrite Em. lia. }
      assert (Cl : forall i, count (rebind x (DLayer l) (tell c dl false (rebind x DNone m))) i = bump (count (rebind x DNone m)) l i).
      { intros i. pose proof (Cr (DLayer l) m i eq_refl) as C1. pose proof (Cr DNone m i eq_refl) as C2.
        change (count (rebind x (DLayer l) (tell c dl false (rebind x DNone m))) i) with (count (rebind x (DLayer l) (rebind x DNone m)) i).
        rewrite reb_twice. unfold bump. unfold kept_by in C1, C2. cbn [fst snd keeps] in C1, C2. rewrite Kx in C1, C2.
        rewrite (Nat.eqb_sym i l). destruct (Nat.eqb l i), (Nat.eqb dl i); cbn [b2] in C1, C2; lia. }
      assert (N1 : ~ In x (map ce_code l1)).
      { destruct R. rewrite Ek, used_mid in r_used by exact Hx.
        assert (Nu : NoDup (map fst (used l1 ++ (ce_code e, (vw (ce_code e) (ce_d e), ce_dl e)) :: used l2)))
          by (eapply Permutation_NoDup; [apply Permutation_map, Permutation_sym, r_used|exact r_nodup]).
        rewrite map_app in Nu. cbn [map fst] in Nu. apply NoDup_remove_2 in Nu. intros I. apply Nu, in_app_iff. left.
        apply in_map_iff in I as (e1 & E1 & I). fold x. rewrite <- E1. unfold RefProofs.used. rewrite map_map. apply in_map_iff. exists e1. split; [reflexivity|].
        apply filter_In. split; [exact I|]. rewrite E1. now destruct (N.eqb_spec x 0). }
      rewrite Ek, upd_split in E.
      bstep E k1 E1. bstep E k2 E2. apply Ok_inj in E. subst k'. apply S_adjust.
      assert (HN : sim (count m) x (rebind x DNone m) (set_k_cache (l1 ++ mkCe x DNone (ce_dl e) 0 :: l2) k)).
      { apply (rebind_sim (count m) 0%N m k x DNone e l1 l2 H Ek eq_refl Hx Vx); [left; exact Logic.I|now left]. }
      assert (E1N : deactivate_layer (set_k_cache (l1 ++ mkCe x DNone (ce_dl e) 0 :: l2) k) dl = Ok (set_k_cache (l1 ++ mkCe x DNone (ce_dl e) 0 :: l2) k1)
        /\ k_cache k1 = l1 ++ mkCe x (DLayer l) (ce_dl e) (ce_layer e) :: l2).
      { unfold deactivate_layer in E1 |- *. destruct (chk_layer dl); cbn [bind] in E1 |- *; try discriminate E1. cbn [k_ls set_k_cache] in E1 |- *.
        destruct (l_active (k_ls k dl) =? 0)%N; [discriminate E1|]. apply Ok_inj in E1. subst k1. split; reflexivity. }
      destruct E1N as [E1N C1].
      set (mN := rebind x DNone m) in *.
      apply (deactivate_sim c pe vw (count m) x) with (m := mN) in E1N; [|exact HN| |exact Ad].
      2:{ intros i. pose proof (Cr DNone m i eq_refl) as C. unfold kept_by in C. cbn [fst snd keeps] in C. rewrite Kx in C. fold mN in C. unfold bump.
          rewrite (Nat.eqb_sym i dl). destruct (Nat.eqb dl i); cbn [b2] in C; lia. }
      assert (HL : sim (count mN) x (rebind x (DLayer l) (tell c dl false mN)) (set_k_cache (l1 ++ mkCe x (DLayer l) (ce_dl e) 0 :: l2) k1)).
      { assert (HN' : sim (count mN) x (tell c dl false mN) (set_k_cache (l1 ++ mkCe x DNone (ce_dl e) 0 :: l2) k1)) by exact E1N.
        apply (rebind_sim _ x _ _ x (DLayer l) (mkCe x DNone (ce_dl e) 0) l1 l2) in HN'; [exact HN'|reflexivity|reflexivity|exact Hx|exact Vx|left; exact Al|now right]. }
      assert (E2L : activate_layer (set_k_cache (l1 ++ mkCe x (DLayer l) (ce_dl e) 0 :: l2) k1) x l = Ok k2).
      { rewrite <- E2. unfold activate_layer. destruct (chk_layer l); cbn [bind]; try reflexivity.
        cbn [k_cache set_k_cache set_k_clock set_lsi set_k_ls k_ls k_clock]. rewrite C1.
        pose proof (set_layer_mid l (mkCe x (DLayer l) (ce_dl e) 0) l1 l2 N1) as F1. pose proof (set_layer_mid l (mkCe x (DLayer l) (ce_dl e) (ce_layer e)) l1 l2 N1) as F2.
        cbn [ce_code ce_d ce_dl] in F1, F2. rewrite F1, F2. reflexivity. }
      apply (activate_sim c pe vw (count mN) x) with (m := rebind x (DLayer l) (tell c dl false mN)) in E2L; [exact E2L|exact HL| |exact Al| |now right|].
      * intros i. symmetry. apply Cl.
      * apply (count_small (count m) x mN _ l (proj2 HN)). exact L.
      * intros _ d0 e0 I. unfold rebind in I. cbn [m_held with_held tell] in I. apply in_map_iff in I as (h & Eh & I).
        destruct (N.eqb_spec (fst h) x) as [Ef|Nf]; [injection Eh as <- _; reflexivity|]. elim Nf. now rewrite Eh.
Qed.
Lemma prelude_sim m k d dl k' : S_ m k -> pre_macro d true dl k = Ok k' -> S_ (prelude c d dl m) k'.
Proof.
  intros H E. assert (Ec : k_cfg k = c) by (exact (r_cfg _ _ _ _ _ _ _ _ _ _ _ _ _ _ _ _ _ _ (proj2 H))).
  unfold pre_macro in E. unfold prelude.
  destruct d; try (apply Ok_inj in E; subst k'; exact H);
    (bstep E mm Em; apply (macro_the _ _ _ Ec) in Em; subst mm; apply Ok_inj in E; subst k'; now apply S_type).
Qed.
Lemma prelude_with d dl m : exists h, prelude c d dl m = with_host h m.
Proof.
  unfold prelude. destruct d; try (exists (m_host m); destruct m; reflexivity);
    eexists; apply type_with.
Qed.

(* what process_descriptor does after the macro of the m variants *)
Lemma press_plain_sim fuel m k code d dl t k' : S_ m k -> m_repeat m = None -> length (m_shots m) < 200 -> plain_action c d ->
  (forall x y, x <> code -> vw x y = y) -> (forall d' e, In (code, (d', e)) (m_held m) -> keeps d' = None) ->
  (forall k0, pre_macro d true dl k0 = Ok k -> process_descriptor (S fuel) k0 code d dl true t = Ok k' ->
   S_ (with_struck code (press_plain c code d dl t m)) k').
Proof.
  intros H Hr L P Vw Own k0 Ep E. assert (Ec : k_cfg k = c) by (exact (r_cfg _ _ _ _ _ _ _ _ _ _ _ _ _ _ _ _ _ _ (proj2 H))).
  cbn [process_descriptor] in E. rewrite Ep in E. cbn [bind] in E. bstep E k1 E1. apply Ok_inj in E. subst k'. apply S_struck.
  unfold press_plain. destruct d; try contradiction P; cbn [plain_action] in P.
  - apply Ok_inj in E1. now subst k1.
  - now apply (key_sim m k code0 mods dl t).
  - unfold pd_swap in E1. bstep E1 k2 E2. apply Ok_inj in E1. subst k1. destruct P as [P1 P2]. now apply (swap_sim m k code).
  - bstep E1 mm Em. apply (macro_the _ _ _ Ec) in Em. subst mm. unfold pd_swap in E1. bstep E1 k2 E2. apply Ok_inj in E1. subst k1. apply S_type.
    destruct P as [P1 P2]. now apply (swap_sim m k code).
  - now apply (setlayout_sim c pe vw m k).
  - now apply (clear_sim c pe vw m k).
  - bstep E1 mm Em. bstep E1 k2 E2. apply (macro_the _ _ _ Ec) in Em. subst mm. apply Ok_inj in E1. subst k1.
    apply S_type. now apply (clear_sim c pe vw m k).
  - destruct P as [[P1 P2] P3]. now apply (flip_sim m k code).
  - destruct P as [[P1 P2] P3]. now apply (flip_sim m k code).
  - rewrite Ec in E1. now apply (macro_sim m k).
  - now apply (macro_sim m k).
  - bstep E1 cmd Em. bstep E1 k2 E2. apply Ok_inj in E1. subst k1. apply S_adjust.
    eapply clear_oneshot_sim; [|exact E2]. unfold cmd_at in Em. rewrite Ec in Em. destruct (Nat.ltb _ _); [|discriminate].
    apply Ok_inj in Em. subst cmd. now apply S_emit.
  - apply Ok_inj in E1. subst k1. now apply S_scroll.
  - apply Ok_inj in E1. subst k1. now apply S_scroll.
Qed.
Lemma release_plain_sim fuel m k code d dl t k' : S_ m k -> plain_action c d ->
  process_descriptor (S fuel) k code d dl false t = Ok k' -> S_ (release_plain c d t m) k'.
Proof.
  intros H P E. assert (Ec : k_cfg k = c) by (exact (r_cfg _ _ _ _ _ _ _ _ _ _ _ _ _ _ _ _ _ _ (proj2 H))).
  cbn [process_descriptor pre_macro] in E. cbn [bind] in E. bstep E k1 E1. apply Ok_inj in E. subst k'.
  unfold release_plain. destruct d; try contradiction P; try (apply Ok_inj in E1; subst k1; exact H);
    try (apply Ok_inj in E1; subst k1; now apply S_scroll); try (unfold pd_toggle, pd_macro in E1; apply Ok_inj in E1; subst k1; exact H).
  2:{ bstep E1 mm Em. apply (macro_the _ _ _ Ec) in Em. subst mm. unfold pd_swap in E1. apply Ok_inj in E1. subst k1.
      destruct (the_macro c m0) as [|[[] ?] [|? ?]]; try exact H. now apply S_adjust, S_strike. }
  unfold pd_key in E1. bstep E1 k2 E2. apply Ok_inj in E1, E2. subst k1 k2.
  assert (X : S_ (adjust c false None 0 (strike code0 false m)) (update_mods false (send_key k code0 false) None 0)) by (now apply S_adjust, S_strike).
  unfold typed. change MOD_SHIFT with 4%N. destruct (_ || _); [now apply S_simple|exact X].
Qed.

(* ---- layer, oneshot and overload ---------------------------------------------------- *)
Lemma prelude_held m k ca X code s d dl k' : S_ (with_seats s m) k -> sim (count m) code (with_held X (seated code m)) (set_k_cache ca k) ->
  pre_macro d true dl (set_k_cache ca k) = Ok k' -> sim (count m) code (with_held X (seated code (prelude c d dl m))) k'.
Proof.
  intros H Hs E. assert (Ag : agree c m (set_k_cache ca k)) by (exact (agree_S c pe vw (with_seats s m) k H)).
  assert (Ec : k_cfg (set_k_cache ca k) = c) by (exact (proj1 Ag)).
  unfold pre_macro in E. unfold prelude.
  destruct d; try (apply Ok_inj in E; subst k'; exact Hs);
    (bstep E mm Em; apply (macro_the _ _ _ Ec) in Em; subst mm; apply Ok_inj in E; subst k'; rewrite type_with;
     match goal with |- sim _ _ (with_held X (seated code (with_host ?h m))) _ =>
       change (with_held X (seated code (with_host h m))) with (with_host h (with_held X (seated code m))) end;
     eapply sim_keys; [exact Hs|apply execute_macro_only|]; exact (proj1 (proj2 (agree_type c m _ dl _ Ag)))).
Qed.
Lemma count_held m X i : count (with_held X m) i + length (filter (kept_by i) (m_held m)) = count m i + length (filter (kept_by i) X).
Proof. unfold count. cbn [m_held m_seats m_locked m_shots m_layout with_held]. lia. Qed.
Lemma latch_sim m k : S_ m k -> S_ (with_shot true (m_until m) m) (set_k_latch true k).
Proof. intros [A R]. split; [exact A|]. destruct R. constructor; try assumption; reflexivity. Qed.
Lemma sim_known a x m k : sim a x m k -> (forall d dl, In (x, (d, dl)) (m_held m) -> keeps d = None) -> sim a 0%N m k.
Proof.
  intros [A R] H. split; [exact A|]. destruct R. constructor; try assumption. intros Sw e He Hz.
  destruct (N.eqb_spec (ce_code e) 0); [contradiction|]. rewrite (r_marks Sw e He Hz). destruct (N.eqb_spec (ce_code e) x) as [Ex|]; [|reflexivity].
  unfold mark. rewrite (H (vw (ce_code e) (ce_d e)) (ce_dl e)); [reflexivity|]. apply (Permutation_in _ r_used). rewrite <- Ex at 1. unfold RefProofs.used.
  apply in_map_iff. exists e. split; [reflexivity|]. apply filter_In. split; [exact He|]. now destruct (N.eqb_spec (ce_code e) 0).
Qed.
Lemma press_sim fuel m k ca code d dl t k' s (X := (code, (d, dl)) :: m_held m) : S_ (with_seats s m) k -> m_repeat m = None -> length (m_shots m) < 200 -> sure_action c d ->
  (forall x y, x <> code -> vw x y = y) -> sim (count m) code (with_held X (seated code m)) (set_k_cache ca k) ->
  process_descriptor (S fuel) (set_k_cache ca k) code d dl true t = Ok k' ->
  S_ (with_struck code (press c code d dl t (with_held X (seated code (prelude c d dl m))))) k'.
Proof.
  intros H Hr L P Vw Hs E. pose proof E as E0. cbn [process_descriptor] in E. bstep E k0 Ep. bstep E k1 E1.
  pose proof (prelude_held m k ca X code s d dl k0 H Hs Ep) as H0. destruct (prelude_with d dl m) as [h Eh]. rewrite Eh in *.
  set (m' := with_held X (seated code (with_host h m))) in *.
  assert (Own : forall d' e, In (code, (d', e)) (m_held m') -> d' = d).
  { pose proof (r_nodup _ _ _ _ _ _ _ _ _ _ _ _ _ _ _ _ _ _ (proj2 H0)) as Nd. change (m_held m') with X in *. unfold X in *. cbn [map fst] in Nd. inversion_clear Nd as [|? ? N1 _].
    intros d' e [I|I]; [now injection I|]. exfalso. apply N1. apply in_map_iff. exists (code, (d', e)). auto. }
  assert (Co : forall i, count m' i = count m i + b2 (kept_by i (code, (d, dl)))).
  { intros i. pose proof (count_held (seated code (with_host h m)) X i) as C. unfold X in C at 2. cbn [filter] in C.
    change (count (seated code (with_host h m)) i) with (count m i) in C. change (m_held (seated code (with_host h m))) with (m_held m) in C. fold m' in C.
    destruct (kept_by i (code, (d, dl))); cbn [length b2] in *; lia. }
  assert (Sm : forall i, count m i < 255) by (intros i; apply (count_small (count m) 0%N (with_seats s m) k); [apply H|exact L]).
  assert (Pl : keeps d = None -> plain_action c d -> S_ (with_struck code (press c code d dl t m')) k').
  { intros Kd Pd. assert (S_ m' k0). { apply (sim_ext c pe vw (count m)); [|apply (sim_known _ code); [exact H0|intros d' e I; now rewrite (Own d' e I)]]. intros i. rewrite Co. unfold kept_by. cbn [fst snd]. rewrite Kd. cbn [b2]. lia. }
    replace (press c code d dl t m') with (press_plain c code d dl t m') by (destruct d; first [reflexivity|discriminate Kd]).
    apply (press_plain_sim fuel m' k0 code d dl t k' H1 Hr L Pd Vw (fun d' e I => eq_trans (f_equal keeps (Own d' e I)) Kd) _ Ep E0). }
  assert (On : forall l k2 kk, sim (count m) code m' kk -> keeps d = Some l -> a_layer c l -> activate_layer kk code l = Ok k2 -> S_ (turn_on c l m') k2).
  { intros l k2 kk Hk Kd Al E2. apply (activate_sim c pe vw (count m) code) with (m := m') in E2; [exact E2|exact Hk| |exact Al|apply Sm|now right|intros _ d' e I; now rewrite (Own d' e I)].
    intros i. rewrite Co. unfold kept_by. cbn [fst snd]. rewrite Kd. unfold bump. rewrite (Nat.eqb_sym l i). destruct (Nat.eqb i l); cbn [b2]; lia. }
  destruct d; try (apply Pl; [reflexivity|exact P]); try contradiction P; cbn [sure_action] in P; apply Ok_inj in E; subst k'; apply S_struck; cbn [press].
  - bstep E1 k2 E2. apply Ok_inj in E1. subst k1. apply (On l) in E2; [|exact H0|reflexivity|exact P]. unfold press_shot.
    apply (latch_sim (adjust c false (Some dl) 0 (turn_on c l m'))). now apply S_adjust.
  - bstep E1 k2 E2. apply Ok_inj in E1. subst k1. apply (On l) in E2; [|exact H0|reflexivity|exact P]. unfold press_shot.
    apply (latch_sim (adjust c false (Some dl) 0 (turn_on c l m'))). now apply S_adjust.
  - bstep E1 k2 E2. apply Ok_inj in E1. subst k1. apply (On l) in E2; [|exact H0|reflexivity|exact P]. unfold press_layer.
    rewrite (r_struck _ _ _ _ _ _ _ _ _ _ _ _ _ _ _ _ _ _ (proj2 E2)). now apply S_adjust.
  - bstep E1 k2 E2. apply Ok_inj in E1. subst k1. apply (On l) in E2; [|exact H0|reflexivity|exact P]. unfold press_layer.
    rewrite (r_struck _ _ _ _ _ _ _ _ _ _ _ _ _ _ _ _ _ _ (proj2 E2)). now apply S_adjust.
  - bstep E1 ac Ea. bstep E1 k2 E2. apply Ok_inj in E1. subst k1. apply S_adjust.
    assert (Hk : sim (count m) code (with_since t m') (set_k_ovl_start t k0)).
    { destruct H0 as [A R]. split; [exact A|]. destruct R. constructor; try assumption; reflexivity. }
    apply (activate_sim c pe vw (count m) code) with (m := with_since t m') in E2; [exact E2|exact Hk| |apply P|apply Sm|now right|intros _ d' e I; now rewrite (Own d' e I)].
    intros i. change (count (with_since t m') i) with (count m' i). rewrite Co. unfold kept_by. cbn [fst snd keeps]. unfold bump.
    rewrite (Nat.eqb_sym l i). destruct (Nat.eqb i l); cbn [b2]; lia.
Qed.

Lemma struck_shots : forall l m, m_struck (fold_left (end_shot c) l m) = m_struck m.
Proof. induction l as [|i l IH]; intros m; cbn [fold_left]; [reflexivity|]. now rewrite IH. Qed.
Lemma struck_end m : m_struck (end_shots c m) = m_struck m.
Proof. unfold end_shots. cbn [m_struck with_shot]. apply struck_shots. Qed.
Lemma struck_locks : forall l m, m_struck (fold_left (unlock c) l m) = m_struck m.
Proof. induction l as [|i l IH]; intros m; cbn [fold_left]; [reflexivity|]. now rewrite IH. Qed.
Lemma struck_reset m : m_struck (reset c m) = m_struck m.
Proof. unfold reset. cbv zeta. cbn [m_struck with_host with_repeat]. now rewrite struck_locks, struck_end. Qed.
Lemma struck_type dl mac m : m_struck (type c dl mac m) = m_struck m.
Proof. now rewrite type_with. Qed.
Lemma struck_tell i b m : m_struck (tell c i b m) = m_struck m. Proof. reflexivity. Qed.
Lemma struck_adjust q dl mods m : m_struck (adjust c q dl mods m) = m_struck m. Proof. reflexivity. Qed.
Lemma struck_strike x p m : m_struck (strike x p m) = m_struck m. Proof. reflexivity. Qed.
Lemma struck_with_layout v m : m_struck (with_layout v m) = m_struck m. Proof. reflexivity. Qed.
Lemma struck_flip l m : m_struck (flip c l m) = m_struck m.
Proof. unfold flip. rewrite struck_end, struck_adjust. destruct (mem _ _); reflexivity. Qed.
Lemma struck_macro n t r dl time m : m_struck (start_macro c n t r dl time m) = m_struck m.
Proof. unfold start_macro. change (m_struck (type c dl (the_macro c n) (end_shots c m)) = m_struck m). now rewrite struck_type, struck_end. Qed.
Lemma struck_swap l dl m : m_struck (swap_to c l dl m) = m_struck m.
Proof. unfold swap_to. cbv zeta. destruct (mem _ _); [reflexivity|]. destruct (keeper c dl m); reflexivity. Qed.
Lemma struck_typed mods t m : m_struck (typed mods t m) = m_struck m.
Proof. unfold typed. destruct (_ || _); reflexivity. Qed.
Lemma struck_press_plain code d dl t m : m_struck (press_plain c code d dl t m) = m_struck m.
Proof.
  destruct d; cbn [press_plain]; try exact (eq_refl (m_struck m)).
  - unfold press_key. cbv zeta. rewrite struck_typed, struck_end, struck_strike, struck_adjust. destruct (o_down _ _); reflexivity.
  - apply struck_swap.
  - rewrite struck_type. apply struck_swap.
  - rewrite struck_tell, struck_with_layout. apply struck_reset.
  - apply struck_reset.
  - rewrite struck_type. apply struck_reset.
  - apply struck_flip.
  - apply struck_flip.
  - apply struck_macro.
  - apply struck_macro.
  - rewrite struck_adjust, struck_end. reflexivity.
Qed.
Lemma with_struck_same x m : m_struck m = x -> with_struck x m = m.
Proof. intros <-. destruct m; reflexivity. Qed.
Lemma desc_the k n d : k_cfg k = c -> desc_at k n = Ok d -> d = nth n (c_descs c) DNone.
Proof. intros Ec E. unfold desc_at in E. rewrite Ec in E. destruct (_ <? _)%N; [|discriminate]. now apply Ok_inj in E. Qed.
(* an action struck and let go at once *)
Definition deep (l : nat) (k : kbd) : kbd := set_lsi l (set_l_depth ((l_depth (k_ls k l) + 1) mod 256) (k_ls k l)) k.
Lemma deep_active l k i : is_active (deep l k) i = is_active k i.
Proof. unfold is_active, deep. cbn [k_ls set_lsi set_k_ls]. unfold nupd. destruct (Nat.eqb_spec i l) as [Ei|]; [now subst i|reflexivity]. Qed.
Lemma deep_keys l k k' : keys_only k k' -> keys_only (deep l k) (deep l k').
Proof. intros (a & s & o & ->). exists a, s, o. reflexivity. Qed.
Lemma deep_adjust l m k q dl mods : S_ m (deep l k) -> S_ (adjust c q dl mods m) (deep l (update_mods q k dl mods)).
Proof.
  intros H. assert (A : agree c m k).
  { destruct (agree_S c pe vw _ _ H) as (A1 & A2 & A3). split; [exact A1|]. split; [exact A2|]. intros i Hi. rewrite (A3 i Hi). apply deep_active. }
  pose proof (host_adjust c m k q dl mods A) as E. unfold adjust in *. eapply S_keys; [exact H|apply deep_keys, update_mods_only|exact E].
Qed.
Lemma undeep l m k k' : S_ m (deep l k) -> (l_depth (k_ls k l) < 200)%N -> In l (m_shots m) -> deactivate_layer k l = Ok k' -> S_ (end_shot c m l) k'.
Proof.
  intros H D I E. assert (Al : a_layer c l) by (exact (r_shots _ _ _ _ _ _ _ _ _ _ _ _ _ _ _ _ _ _ (proj2 H) l I)).
  set (m' := with_shots (remove_one l (m_shots m)) m).
  change (end_shot c m l) with (tell c l false m').
  apply (deactivate_sim c pe vw (count m) 0%N) with (m := m') in E; [exact E| | |exact Al].
  - destruct H as [A R]. split; [exact A|].
    assert (F : forall j, l_active (k_ls (deep l k) j) = l_active (k_ls k j) /\ l_time (k_ls (deep l k) j) = l_time (k_ls k j) /\ l_toggled (k_ls (deep l k) j) = l_toggled (k_ls k j)).
    { intros j. unfold deep. cbn [k_ls set_lsi set_k_ls]. unfold nupd. destruct (Nat.eqb_spec j l) as [Ej|]; [subst j|]; auto. }
    destruct R. unfold RefProofs.rest, m'.
    cbn [m_held m_seats m_locked m_shots m_recent m_layout m_armed m_until m_since m_struck m_repeat m_simple with_shots].
    constructor; try assumption; try (intros j; destruct (F j) as (T1 & T2 & T3); rewrite <- ?T1, <- ?T2, <- ?T3; auto; fail).
    + intros j. pose proof (r_shot j) as D2. rewrite (count_remove l (m_shots m) j I) in D2. unfold deep in D2. cbn [k_ls set_lsi set_k_ls] in D2. unfold nupd in D2.
      destruct (Nat.eqb_spec j l) as [Ej|Nj]; [subst j; cbn [l_depth set_l_depth] in D2; rewrite N.mod_small in D2 by lia; lia|]. exact D2.
    + intros j Hj. apply r_shots. now apply In_remove in Hj.
    + eapply sorted_weak; [|exact r_sorted]. intros x y _ _. destruct (F x) as (_ & -> & _), (F y) as (_ & -> & _). auto.
    + destruct (F (m_layout m)) as (_ & <- & _). exact r_base.
  - intros j. unfold bump, count, m'. cbn [m_held m_seats m_locked m_shots m_layout with_shots]. rewrite (count_remove l (m_shots m) j I). destruct (Nat.eqb j l); lia.
Qed.
Lemma depth_on k code l k2 : activate_layer k code l = Ok k2 -> l_depth (k_ls k2 l) = l_depth (k_ls k l) /\ k_last_code k2 = k_last_code k /\ k_ovl_start k2 = k_ovl_start k /\ k_cfg k2 = k_cfg k.
Proof.
  intros E. unfold activate_layer in E. bstep E u Eu. apply Ok_inj in E. subst k2. cbn [k_ls emit set_k_out set_k_cache set_k_clock set_lsi set_k_ls]. unfold nupd.
  rewrite Nat.eqb_refl. auto.
Qed.
Lemma keys_more k k' : keys_only k k' -> k_ls k' = k_ls k /\ k_last_code k' = k_last_code k /\ k_ovl_start k' = k_ovl_start k /\ k_cfg k' = k_cfg k.
Proof. intros (a & s & o & ->). auto. Qed.
Lemma deep_struck l m k v : S_ m (deep l k) -> m_struck m = v -> S_ m (deep l (set_k_last_code v k)).
Proof. intros H <-. pose proof (S_struck m _ (m_struck m) H) as X. rewrite with_struck_same in X by reflexivity. exact X. Qed.
Lemma deep_latch l m k : S_ m (deep l k) -> S_ (with_shot true (m_until m) m) (deep l (set_k_latch true k)).
Proof. intros H. exact (latch_sim m _ H). Qed.
Lemma until_sim b u v m k : S_ (with_shot b u m) k -> S_ (with_shot b v m) (set_k_oneshot_to v k).
Proof. intros [A R]. split; [exact A|]. destruct R. constructor; try assumption; reflexivity. Qed.
(* on and off again *)
Lemma flick_sim m k code l q k2 k3 : S_ m k -> length (m_shots m) < 200 -> a_layer c l -> (forall d e, ~ In (code, (d, e)) (m_held m)) ->
  activate_layer k code l = Ok k2 -> m_struck m = code -> deactivate_layer (set_k_last_code code (update_mods q k2 None 0)) l = Ok k3 ->
  S_ (flick c q l m) (update_mods q k3 None 0).
Proof.
  intros H L Al Nh E Es E3. pose proof (shot_on_by m k code l k2 H L Al Nh E) as X. fold (deep l k2) in X. apply depth_on in E as (D1 & D2 & D3 & D4).
  apply (deep_adjust l _ _ q None 0) in X. destruct (keys_more k2 (update_mods q k2 None 0) (update_mods_only _ _ _ _)) as (K1 & K2 & K3 & K4).
  apply S_adjust. eapply (undeep l); [| | |exact E3].
  - apply deep_struck; [exact X|exact Es].
  - change (l_depth (k_ls (update_mods q k2 None 0) l) < 200)%N. rewrite K1, D1, (r_shot _ _ _ _ _ _ _ _ _ _ _ _ _ _ _ _ _ _ (proj2 H)). pose proof (occ_le (m_shots m) l). lia.
  - left. reflexivity.
Qed.
Lemma not_held code m : holding code m = None -> forall d e, ~ In (code, (d, e)) (m_held m).
Proof.
  intros Ho d e I. unfold holding in Ho. destruct (find _ _) eqn:Fi; [discriminate|]. apply (find_none _ _ Fi) in I. cbn [fst] in I. rewrite N.eqb_refl in I. discriminate.
Qed.
Lemma tap_sim : forall n fuel m k code d dl t k', S_ m k -> m_repeat m = None -> length (m_shots m) < 200 -> tap_action c n d ->
  (forall x y, x <> code -> vw x y = y) -> holding code m = None -> m_struck m = code ->
  match d with
  | DMacro x => bind (macro_at k x) (fun mm => Ok (execute_macro k dl mm))
  | _ => bind (process_descriptor fuel k code d dl true t) (fun k2 => process_descriptor fuel k2 code d dl false t)
  end = Ok k' -> S_ (tap_as c n code d dl t m) k'.
Proof.
  induction n as [n IH] using lt_wf_ind. intros fuel m k code d dl t k' H Hr L P Vw Ho Es E.
  assert (Ec : k_cfg k = c) by (exact (r_cfg _ _ _ _ _ _ _ _ _ _ _ _ _ _ _ _ _ _ (proj2 H))).
  pose proof (not_held code m Ho) as Nh.
  assert (Gen : plain_action c d -> 
      bind (process_descriptor fuel k code d dl true t) (fun k4 => process_descriptor fuel k4 code d dl false t) = Ok k' ->
      S_ (release_plain c d t (press_plain c code d dl t (prelude c d dl m))) k').
  { clear P. intros Pt X. destruct fuel as [|fuel]; [discriminate X|]. bstep X k4 E4. pose proof E4 as E5. cbn [process_descriptor] in E4. bstep E4 k5 Ep. clear E4.
    destruct (prelude_with d dl m) as [h Eh]. pose proof (prelude_sim m k d dl k5 H Ep) as S5. rewrite Eh in *.
    pose proof (press_plain_sim fuel (with_host h m) k5 code d dl t k4 S5 Hr L Pt Vw) as S4.
    assert (Own : forall d' e, In (code, (d', e)) (m_held (with_host h m)) -> keeps d' = None) by (intros d' e I; elim (Nh d' e I)).
    specialize (S4 Own k Ep E5).
    rewrite with_struck_same in S4; [exact (release_plain_sim fuel _ k4 code d dl t k' S4 Pt X)|].
    rewrite struck_press_plain. exact Es. }
  assert (Lay : forall l x, a_layer c l -> process_descriptor fuel k code d dl true t = Ok x -> (d = DLayer l \/ exists n, d = DLayerM l n) ->
     process_descriptor fuel x code d dl false t = Ok k' -> S_ (flick c true l (prelude c d dl m)) k').
  { intros l x Al E1 Hd E2. destruct fuel as [|fuel]; [discriminate E1|]. cbn [process_descriptor] in E1, E2. bstep E1 k0 Ep. bstep E1 k1 Ek. apply Ok_inj in E1. subst x.
    pose proof (prelude_sim m k d dl k0 H Ep) as S0. destruct (prelude_with d dl m) as [h Eh]. rewrite Eh in *.
    cbn [pre_macro bind] in E2. 
    assert (Ek' : pd_layer k0 code l true = Ok k1) by (destruct Hd as [Hd|[y Hd]]; subst d; exact Ek). clear Ek.
    assert (E2' : bind (pd_layer (set_k_last_code code k1) code l false) Ok = Ok k') by (destruct Hd as [Hd|[y Hd]]; subst d; exact E2). clear E2.
    bstep E2' k3 E3. apply Ok_inj in E2'. subst k3. unfold pd_layer in Ek', E3. bstep Ek' k2 E2. bstep E3 k3 E4. apply Ok_inj in Ek', E3. subst k1 k'.
    assert (T : (k_last_code k2 =? code)%N = true).
    { destruct (depth_on _ _ _ _ E2) as (_ & -> & _). rewrite (r_struck _ _ _ _ _ _ _ _ _ _ _ _ _ _ _ _ _ _ (proj2 S0)). change (m_struck (with_host h m)) with (m_struck m). rewrite Es. apply N.eqb_refl. }
    rewrite T in E4.
    assert (T2 : (k_last_code k3 =? code)%N = true).
    { clear -E4. unfold deactivate_layer in E4. bstep E4 u Eu. cbv zeta in E4. destruct (_ =? 0)%N; [discriminate|]. apply Ok_inj in E4. subst k3. cbn. apply N.eqb_refl. }
    rewrite T2. now apply (flick_sim (with_host h m) k0 code l true k2 k3). }
  assert (Sho : forall l x, a_layer c l -> process_descriptor fuel k code d dl true t = Ok x -> (d = DOneshot l \/ exists n, d = DOneshotM l n) ->
     process_descriptor fuel x code d dl false t = Ok k' -> let m1 := prelude c d dl m in
     S_ (with_shot true (shot_end c t m) (adjust c false (Some dl) 0 (turn_on c l (with_shots (l :: m_shots m1) m1)))) k').
  { intros l x Al E1 Hd E2. destruct fuel as [|fuel]; [discriminate E1|]. cbn [process_descriptor] in E1, E2. bstep E1 k0 Ep. bstep E1 k1 Ek. apply Ok_inj in E1. subst x.
    pose proof (prelude_sim m k d dl k0 H Ep) as S0. destruct (prelude_with d dl m) as [h Eh]. rewrite Eh in *. cbv zeta. set (m1 := with_host h m) in *.
    cbn [pre_macro bind] in E2. 
    assert (Ek' : pd_oneshot k0 code l dl true t = Ok k1) by (destruct Hd as [Hd|[y Hd]]; subst d; exact Ek). clear Ek.
    assert (E2' : bind (pd_oneshot (set_k_last_code code k1) code l dl false t) Ok = Ok k') by (destruct Hd as [Hd|[y Hd]]; subst d; exact E2). clear E2.
    bstep E2' k3 E3. apply Ok_inj in E2'. subst k3. unfold pd_oneshot in Ek', E3. bstep Ek' k2 E2. apply Ok_inj in Ek'. subst k1. cbn [k_latch set_k_latch set_k_last_code] in E3.
    bstep E3 u Eu. clear Eu u. cbv zeta in E3.
    pose proof (shot_on_by m1 k0 code l k2 S0 L Al Nh E2) as X. fold (deep l k2) in X. apply depth_on in E2 as (D1 & D2 & D3 & D4).
    apply (deep_adjust l _ _ false (Some dl) 0) in X. destruct (keys_more k2 (update_mods false k2 (Some dl) 0) (update_mods_only _ _ _ _)) as (K1 & K2 & K3 & K4).
    assert (Ec4 : k_cfg (update_mods false k2 (Some dl) 0) = c) by (rewrite K4, D4; exact (r_cfg _ _ _ _ _ _ _ _ _ _ _ _ _ _ _ _ _ _ (proj2 S0))).
    set (m4 := adjust c false (Some dl) 0 (turn_on c l (with_shots (l :: m_shots m1) m1))) in *. set (k4 := update_mods false k2 (Some dl) 0) in *. clearbody k4.
    assert (Es4 : m_struck m4 = code) by exact Es. assert (Eu : m_until m4 = m_until m) by reflexivity. clearbody m4.
    assert (Y : S_ (with_shot true (m_until m) m4) (deep l (set_k_last_code code (set_k_latch true k4)))).
    { rewrite <- Eu. apply deep_struck; [|exact Es4]. now apply deep_latch. }
    unfold shot_end.
    change (c_oneshot_timeout (k_cfg (set_k_last_code code (set_k_latch true k4)))) with (c_oneshot_timeout (k_cfg k4)) in E3. rewrite Ec4 in E3.
    destruct (c_oneshot_timeout c =? 0)%Z.
    - apply Ok_inj in E3. subst k'. exact Y.
    - eapply schedule_S; [|exact E3]. eapply until_sim. exact Y. }
  assert (Mac : forall x, bind (macro_at k x) (fun mm => Ok (execute_macro k dl mm)) = Ok k' -> S_ (type c dl (the_macro c x) m) k').
  { intros x X. bstep X mm Em. apply (macro_the _ _ _ Ec) in Em. subst mm. apply Ok_inj in X. subst k'. now apply S_type. }
  destruct n as [|n]; destruct d; cbn [tap_as tap_action] in P |- *;
    lazymatch goal with
    | |- _ (release_plain _ _ _ _) _ => first [contradiction P|exact (Gen P E)]
    | |- _ (type _ _ _ _) _ => exact (Mac _ E)
    | |- _ (flick _ true _ _) _ => bstep E x E1; exact (Lay _ x P E1 ltac:(first [now left|right; eexists; reflexivity]) E)
    | |- _ (with_shot _ _ _) _ => bstep E x E1; exact (Sho _ x P E1 ltac:(first [now left|right; eexists; reflexivity]) E)
    | |- _ => idtac
    end.
  - destruct P as [_ []].
  - clear Gen Lay Sho Mac. destruct P as [Al P]. bstep E x E1. destruct fuel as [|fuel]; [discriminate E1|]. cbn [process_descriptor pre_macro bind] in E1, E.
    bstep E1 k1 Ek. apply Ok_inj in E1. subst x. bstep Ek ac Ea. clear Ea ac. bstep Ek k2 E2. apply Ok_inj in Ek. subst k1.
    bstep E k4 E4. apply Ok_inj in E. subst k4. bstep E4 ac Ea. bstep E4 k3 E3. cbv zeta in E4.
    destruct (depth_on _ _ _ _ E2) as (D1 & D2 & D3 & D4). destruct (keys_more k2 (update_mods false k2 None 0) (update_mods_only _ _ _ _)) as (K1 & K2 & K3 & K4).
    assert (Fl : S_ (flick c false l (with_since t m)) (update_mods false k3 None 0)).
    { apply (flick_sim (with_since t m) (set_k_ovl_start t k) code l false k2 k3); try assumption. now apply S_since. }
    apply desc_the in Ea; [|change (k_cfg (set_k_last_code code (update_mods false k2 None 0))) with (k_cfg (update_mods false k2 None 0)); rewrite K4, D4; exact Ec]. subst ac.
    set (m1 := flick c false l (with_since t m)) in *. set (k5 := update_mods false k3 None 0) in *.
    assert (F1 : m_repeat m1 = None) by exact Hr. assert (F2 : length (m_shots m1) < 200).
    { replace (m_shots m1) with (m_shots m); [exact L|]. unfold m1, flick, end_shot, turn_on, tell, adjust.
      cbn [m_shots with_shots with_host with_recent with_since remove_one]. now rewrite Nat.eqb_refl. }
    assert (F3 : holding code m1 = None) by exact Ho. assert (F4 : m_struck m1 = code) by exact Es. assert (F5 : m_since m1 = t) by reflexivity.
    clearbody m1 k5. rewrite (r_struck _ _ _ _ _ _ _ _ _ _ _ _ _ _ _ _ _ _ (proj2 Fl)), (r_since _ _ _ _ _ _ _ _ _ _ _ _ _ _ _ _ _ _ (proj2 Fl)),
      (r_cfg _ _ _ _ _ _ _ _ _ _ _ _ _ _ _ _ _ _ (proj2 Fl)), F4, F5, N.eqb_refl, Z.sub_diag in E4. cbn [andb] in E4.
    assert (T : ((c_tap_timeout c =? 0) || (0 <? c_tap_timeout c))%Z = (0 <=? c_tap_timeout c)%Z).
    { apply eq_true_iff_eq. rewrite orb_true_iff, Z.eqb_eq, Z.ltb_lt, Z.leb_le. lia. }
    rewrite T in E4. destruct (0 <=? c_tap_timeout c)%Z; [|apply Ok_inj in E4; now subst k'].
    apply (IH n (Nat.lt_succ_diag_r n) fuel m1 k5); assumption.
Qed.
Lemma release_sim fuel m m' k code d dl t k' : sim (count m) 0%N m' k -> (forall i, count m i = count m' i + b2 (kept_by i (code, (d, dl)))) ->
  m_repeat m' = None -> length (m_shots m') < 200 -> sure_action c d -> (forall x y, x <> code -> vw x y = y) -> holding code m' = None ->
  process_descriptor (S (S fuel)) k code d dl false t = Ok k' -> S_ (release c code d dl t m') k'.
Proof.
  intros H Co Hr L P Vw Ho E. pose proof E as E0. cbn [process_descriptor] in E. bstep E k0 Ep. bstep E k1 E1. cbn [pre_macro] in Ep. apply Ok_inj in Ep, E. subst k0 k'.
  assert (Pl : keeps d = None -> plain_action c d -> S_ (release c code d dl t m') k1).
  { intros Kd Pd. assert (Hm : S_ m' k). { apply (sim_ext c pe vw (count m)); [|exact H]. intros i. rewrite Co. unfold kept_by. cbn [fst snd]. rewrite Kd. cbn [b2]. lia. }
    replace (release c code d dl t m') with (release_plain c d t m') by (destruct d; first [reflexivity|discriminate Kd]).
    apply (release_plain_sim (S fuel) m' k code d dl t k1 Hm Pd E0). }
  assert (Off : forall l k2, keeps d = Some l -> a_layer c l -> deactivate_layer k l = Ok k2 -> S_ (tell c l false m') k2).
  { intros l k2 Kd Al E2. apply (deactivate_sim c pe vw (count m) 0%N) with (m := m') in E2; [exact E2|exact H| |exact Al].
    intros i. rewrite Co. unfold kept_by. cbn [fst snd]. rewrite Kd. unfold bump. rewrite (Nat.eqb_sym l i). destruct (Nat.eqb i l); cbn [b2]; lia. }
  assert (Ec : k_cfg k = c) by (exact (r_cfg _ _ _ _ _ _ _ _ _ _ _ _ _ _ _ _ _ _ (proj2 H))).
  assert (Sh : forall l, keeps d = Some l -> a_layer c l -> pd_oneshot k code l dl false t = Ok k1 -> S_ (release_shot c l t m') k1).
  { intros l Kd Al X. unfold pd_oneshot in X. unfold release_shot. rewrite (r_armed _ _ _ _ _ _ _ _ _ _ _ _ _ _ _ _ _ _ (proj2 H)) in X.
    destruct (m_armed m') eqn:Ar.
    - bstep X u Eu. clear Eu u. cbv zeta in X. set (k2 := set_lsi l (set_l_depth ((l_depth (k_ls k l) + 1) mod 256) (k_ls k l)) k) in *.
      assert (F : S_ (with_shots (l :: m_shots m') m') k2).
      { apply (sim_ext c pe vw (count m)).
        - intros i. rewrite Co. unfold count. cbn [m_held m_seats m_locked m_shots m_layout with_shots count_occ]. unfold kept_by. cbn [fst snd]. rewrite Kd.
          destruct (Nat.eq_dec l i) as [El|Nl]; [rewrite El, Nat.eqb_refl; cbn [b2]; lia|]. destruct (Nat.eqb_spec l i); [contradiction|]. cbn [b2]. lia.
        - destruct H as [A R]. split; [exact A|]. destruct R. unfold RefProofs.rest.
          cbn [m_held m_seats m_locked m_shots m_recent m_layout m_armed m_until m_since m_struck m_repeat m_simple with_shots].
          assert (F : forall j, l_active (k_ls k2 j) = l_active (k_ls k j) /\ l_time (k_ls k2 j) = l_time (k_ls k j) /\ l_toggled (k_ls k2 j) = l_toggled (k_ls k j)).
          { intros j. unfold k2. cbn [k_ls set_lsi set_k_ls]. unfold nupd. destruct (Nat.eqb_spec j l) as [Ej|]; [subst j|]; auto. }
          constructor; try assumption; try (intros j; destruct (F j) as (T1 & T2 & T3); rewrite ?T1, ?T2, ?T3; auto; fail).
          + intros j. cbn [count_occ]. unfold k2. cbn [k_ls set_lsi set_k_ls]. unfold nupd. destruct (Nat.eqb_spec j l) as [Ej|Nj].
            * subst j. cbn [l_depth set_l_depth]. rewrite r_shot. pose proof (occ_le (m_shots m') l). destruct (Nat.eq_dec l l); [|contradiction].
              rewrite N.mod_small; lia.
            * rewrite r_shot. destruct (Nat.eq_dec l j); [congruence|reflexivity].
          + intros j [Hj|Hj]; [now subst j|auto].
          + eapply sorted_weak; [|exact r_sorted]. intros x y _ _. destruct (F x) as (_ & -> & _), (F y) as (_ & -> & _). auto.
          + destruct (F (m_layout m')) as (_ & -> & _). exact r_base. }
      unfold shot_end. rewrite Ec in X. destruct (c_oneshot_timeout c =? 0)%Z.
      + apply Ok_inj in X. subst k1. destruct F as [A R]. split; [exact A|]. destruct R. constructor; try assumption. cbn [m_armed with_shot].
        rewrite <- Ar. exact r_armed.
      + eapply schedule_S; [|exact X]. destruct F as [A R]. split; [exact A|]. destruct R. constructor; try assumption; try reflexivity.
        cbn [m_armed with_shot]. rewrite <- Ar. exact r_armed.
    - bstep X k2 E2. apply Ok_inj in X. subst k1. apply S_adjust. now apply (Off l). }
  destruct d; try (apply Pl; [reflexivity|exact P]); try contradiction P; cbn [sure_action] in P; cbn [release].
  - now apply Sh.
  - now apply Sh.
  - bstep E1 k2 E2. apply Ok_inj in E1. subst k1. apply (Off l) in E2; [|reflexivity|exact P].
    rewrite (r_struck _ _ _ _ _ _ _ _ _ _ _ _ _ _ _ _ _ _ (proj2 E2)). now apply S_adjust.
  - bstep E1 k2 E2. apply Ok_inj in E1. subst k1. apply (Off l) in E2; [|reflexivity|exact P].
    rewrite (r_struck _ _ _ _ _ _ _ _ _ _ _ _ _ _ _ _ _ _ (proj2 E2)). now apply S_adjust.
  - bstep E1 ac Ea. bstep E1 k2 E2. apply (Off l) in E2; [|reflexivity|apply P]. apply (S_adjust c pe vw _ _ false None 0) in E2.
    assert (ac = nth a (c_descs c) DNone) as ->. { unfold desc_at in Ea. rewrite Ec in Ea. destruct (N.ltb _ _); [|discriminate]. now apply Ok_inj in Ea. }
    set (m1 := adjust c false None 0 (tell c l false m')) in *. set (k3 := update_mods false k2 None 0) in *. clearbody k3. cbv zeta in E1.
    assert (Ec3 : k_cfg k3 = c) by (exact (r_cfg _ _ _ _ _ _ _ _ _ _ _ _ _ _ _ _ _ _ (proj2 E2))). rewrite Ec3 in E1.
    rewrite (r_struck _ _ _ _ _ _ _ _ _ _ _ _ _ _ _ _ _ _ (proj2 E2)), (r_since _ _ _ _ _ _ _ _ _ _ _ _ _ _ _ _ _ _ (proj2 E2)) in E1.
    change (m_struck m1) with (m_struck m') in E1. change (m_since m1) with (m_since m') in E1.
    destruct (_ && _) eqn:Tap; [|apply Ok_inj in E1; now subst k1].
    destruct P as [_ P]. apply andb_true_iff in Tap as [Tap _]. apply N.eqb_eq in Tap.
    apply (tap_sim (length (c_descs c)) (S fuel) m1 k3 code (nth a (c_descs c) DNone) dl t k1); assumption.
Qed.

(* ---- keys decided later ---------------------------------------------------------------- *)
(* what is put off, if anything *)
Definition put_off (code : N) (d : desc) (dl : nat) (t : Z) : fringe :=
  match d with
  | DOverloadT l a w => with_pend (mkPend code dl (t + w)%Z PkUninterruptible (p_queue pe) (nth a (c_descs c) DNone) (DLayer l)) pe
  | DOverloadT2 l a w => with_pend (mkPend code dl (t + w)%Z PkTap2 (p_queue pe) (nth a (c_descs c) DNone) (DLayer l)) pe
  | DTimeout a1 w a2 => with_pend (mkPend code dl (t + w)%Z PkInterrupt1 (p_queue pe) (nth a1 (c_descs c) DNone) (nth a2 (c_descs c) DNone)) pe
  | _ => pe
  end.
Lemma late_keeps d : late_action c d -> keeps d = None.
Proof. destruct d; cbn; tauto. Qed.
Lemma late_press fuel m k code d dl t k' X : late_action c d -> sim (count m) code (with_held ((code, (d, dl)) :: X) (seated code m)) k ->
  X = m_held m -> process_descriptor (S fuel) k code d dl true t = Ok k' ->
  RefProofs.S_ c (put_off code d dl t) vw (begin_key c code d dl t m) k'.
Proof.
  intros Ld H EX E. subst X. set (m' := with_held _ (seated code m)) in *.
  assert (Own : forall d' e, In (code, (d', e)) (m_held m') -> d' = d).
  { pose proof (r_nodup _ _ _ _ _ _ _ _ _ _ _ _ _ _ _ _ _ _ (proj2 H)) as Nd. change (m_held m') with ((code, (d, dl)) :: m_held m) in *. cbn [map fst] in Nd. inversion_clear Nd as [|? ? N1 _].
    intros d' e [I|I]; [now injection I|]. exfalso. apply N1. apply in_map_iff. exists (code, (d', e)). auto. }
  assert (Hm : S_ m' k).
  { apply (sim_ext c pe vw (count m)); [|apply (sim_known _ code); [exact H|intros d' e I; rewrite (Own d' e I); now apply late_keeps]]. intros i.
    pose proof (count_held (seated code m) ((code, (d, dl)) :: m_held m) i) as C. change (count (seated code m) i) with (count m i) in C. change (m_held (seated code m)) with (m_held m) in C. fold m' in C. cbn [filter] in C.
    assert (Kb : kept_by i (code, (d, dl)) = false) by (unfold kept_by; cbn [fst snd]; now rewrite (late_keeps d Ld)). rewrite Kb in C. lia. }
  assert (Ec : k_cfg k = c) by (exact (r_cfg _ _ _ _ _ _ _ _ _ _ _ _ _ _ _ _ _ _ (proj2 Hm))).
  assert (Ep : k_pend k = pe) by (exact (r_pend _ _ _ _ _ _ _ _ _ _ _ _ _ _ _ _ _ _ (proj2 Hm))).
  assert (Sp : forall x2 due b a1 a2, set_pending k code dl due b a1 a2 = Ok x2 -> k' = set_k_last_code code x2 ->
    RefProofs.S_ c (with_pend (mkPend code dl due b (p_queue pe) a1 a2) pe) vw (with_struck code m') k').
  { intros x2 due b a1 a2 E2 ->. unfold set_pending in E2. rewrite Ep in E2. cbv zeta in E2. apply schedule_ok in E2. subst x2. destruct Hm as [A R]. split; [exact A|]. destruct R. constructor; try assumption; reflexivity. }
  cbn [process_descriptor] in E. bstep E k0 Ek. bstep E k1 E1.
  destruct d; try contradiction Ld; cbn [pre_macro] in Ek; apply Ok_inj in Ek, E; subst k0; cbn [put_off].
  - bstep E1 x Ex. apply (desc_the _ _ _ Ec) in Ex. subst x. eapply Sp; [exact E1|now symmetry].
  - bstep E1 x Ex. apply (desc_the _ _ _ Ec) in Ex. subst x. eapply Sp; [exact E1|now symmetry].
  - bstep E1 x Ex. apply (desc_the _ _ _ Ec) in Ex. subst x. bstep E1 x Ex. apply (desc_the _ _ _ Ec) in Ex. subst x. eapply Sp; [exact E1|now symmetry].
Qed.
Lemma late_release fuel k code d dl t k' : late_action c d -> process_descriptor (S fuel) k code d dl false t = Ok k' -> k' = k.
Proof.
  intros Ld E. cbn [process_descriptor pre_macro bind] in E. bstep E k1 E1. apply Ok_inj in E. subst k'.
  destruct d; try contradiction Ld; now apply Ok_inj in E1.
Qed.
End Ref.
