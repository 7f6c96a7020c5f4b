(* Proofs for C69. *)
From Verif Require Import Base Lib Keys Types MacroExec Kbd Steps Hist SpecMods SpecLookup SpecDefer Outside ModsProofs LookupProofs
  ClassInv StepProofs Engine Inv SpecRef.
From Coq Require Import Permutation Sorting.Sorted.
Local Open Scope nat_scope.

Definition host_of (k : kbd) : host := Host (k_ks k) (k_last_out k) (k_out k).

(* ---- the host ----------------------------------------------------------------------- *)
Lemma host_send k x p : host_of (send_key k x p) = stroke x p (host_of k).
Proof.
  unfold send_key, stroke, host_of. change K_NOOP with 195%N. change K_EXTERNAL_MOUSE with 196%N.
  destruct ((x =? 195)%N || (x =? 196)%N); [reflexivity|]. cbn [o_down o_last o_log].
  destruct p; cbn [k_ks set_k_last_out]; destruct (Bool.eqb _ _); reflexivity.
Qed.
Lemma host_clear_mod inh k x : host_of (clear_mod inh k x) = lift (k_cfg k) inh x (host_of k).
Proof.
  unfold clear_mod, lift. cbn [host_of o_down o_last o_log].
  change K_LEFTMETA with 125%N. change K_LEFTALT with 56%N. change K_RIGHTALT with 100%N. change K_LEFTCTRL with 29%N.
  destruct (_ && _); rewrite ?host_send; reflexivity.
Qed.
Lemma cfg_keys k k' : keys_only k k' -> k_cfg k' = k_cfg k.
Proof. intros (l & s & o & ->). reflexivity. Qed.
Lemma has_hasmod b s : has b s = hasmod b s.
Proof. reflexivity. Qed.
Lemma fix1_ext cc q w w' h x : (forall b, w b = w' b) -> fix1 cc q w h x = fix1 cc q w' h x.
Proof. intros H. unfold fix1. now rewrite H. Qed.
Lemma fold_fix1_ext cc q w w' : (forall b, w b = w' b) -> forall l h, fold_left (fix1 cc q w) l h = fold_left (fix1 cc q w') l h.
Proof. intros H. induction l as [|x l IH]; intros h; cbn [fold_left]; [reflexivity|]. now rewrite (fix1_ext cc q w w' h x H), IH. Qed.
Lemma host_set_mods inh mods : forall l k, (forall x, In x l -> In x modifiers) ->
  host_of (fold_left (set_mod1 inh mods) l k) = fold_left (fix1 (k_cfg k) inh (fun b => hasmod b mods)) l (host_of k).
Proof.
  induction l as [|[mask x] l IH]; intros k H; cbn [fold_left]; [reflexivity|].
  rewrite IH by (intros; apply H; now right). rewrite (cfg_keys _ _ (set_mod1_only inh mods k (mask, x))). f_equal.
  unfold set_mod1, fix1. cbn [fst snd]. change (o_down (host_of k) x) with (k_ks k x).
  destruct (hasmod mask mods), (k_ks k x); try reflexivity; [apply host_send|apply host_clear_mod].
Qed.

(* what the machine does not speak about: the key not yet decided, and what is known of chords *)
Record fringe := Fringe { f_pend :> pend; f_chords : chst -> list achord -> Prop }.
Definition with_pend (p : pend) (f : fringe) : fringe := Fringe p (f_chords f).
Definition no_chords (h : chst) (acs : list achord) : Prop := h_state h = CsInactive /\ forall ac, In ac acs -> ac_active ac = false.
Definition unchorded_fringe (p : pend) : fringe := Fringe p no_chords.

Section Ref.
Variable c : config.
Notation lit := (lit).

Definition agree (m : machine) (k : kbd) : Prop :=
  k_cfg k = c /\ m_host m = host_of k /\ forall i, i < length (c_layers c) -> lit m i = is_active k i.

Lemma host_adjust m k q dl mods : agree m k -> m_host (adjust c q dl mods m) = host_of (update_mods q k dl mods).
Proof.
  intros (E & H & L). unfold update_mods, set_mods. rewrite host_set_mods by auto. rewrite E, <- H.
  unfold adjust. cbn [m_host with_host]. change five with modifiers. apply fold_fix1_ext.
  intros b. apply eq_true_iff_eq. unfold active_mods. rewrite active_mods_gen. unfold wants. rewrite orb_true_iff, existsb_exists.
  rewrite has_hasmod. unfold layers, nlayers. rewrite E.
  split; (intros [X|[i X]]; [left; exact X|right; exists i]).
  - destruct X as [I X]. rewrite !andb_true_iff, negb_true_iff in X. destruct X as [[X1 X2] X3].
    split; [exact I|]. apply in_seq in I. rewrite <- L by lia. split; [exact X1|].
    unfold layer_at. rewrite E. split; [|exact X3]. unfold excluded, layer_at. rewrite E. exact X2.
  - destruct X as [I [X1 [X2 X3]]]. split; [exact I|]. apply in_seq in I. rewrite <- L in X1 by lia.
    rewrite !andb_true_iff, negb_true_iff. split; [split; [exact X1|]|].
    + unfold excluded, layer_at in X2. rewrite E in X2. exact X2.
    + unfold layer_at in X3. rewrite E in X3. exact X3.
Qed.
Lemma active_keys k k' i : keys_only k k' -> is_active k' i = is_active k i.
Proof. intros (l & s & o & ->). reflexivity. Qed.
Lemma agree_keys m k h k' : agree m k -> keys_only k k' -> h = host_of k' -> agree (with_host h m) k'.
Proof.
  intros (E & H & L) K ->. split; [now rewrite (cfg_keys _ _ K)|]. split; [reflexivity|].
  intros i Hi. rewrite (active_keys _ _ i K). rewrite <- L by auto. reflexivity.
Qed.
Lemma agree_adjust m k q dl mods : agree m k -> agree (adjust c q dl mods m) (update_mods q k dl mods).
Proof.
  intros A. pose proof (host_adjust m k q dl mods A) as H. unfold adjust in *. eapply agree_keys; [exact A|apply update_mods_only|exact H].
Qed.
Lemma agree_strike m k x p : agree m k -> agree (strike x p m) (send_key k x p).
Proof. intros A. apply (agree_keys m k); [exact A|apply send_key_only|]. rewrite host_send. now rewrite (proj1 (proj2 A)). Qed.
Lemma says_out : forall os h, fold_left (fun h o => say o h) os h = Host (o_down h) (o_last h) (rev os ++ o_log h).
Proof.
  induction os as [|o os IH]; intros h; cbn [fold_left rev]; [now destruct h|]. rewrite IH. cbn [say o_down o_last o_log].
  now rewrite <- app_assoc.
Qed.
Lemma agree_type m k dl mac : agree m k -> agree (type c dl mac m) (execute_macro k dl mac).
Proof.
  intros A. pose proof (agree_adjust m k false (Some dl) 0 A) as A0.
  assert (G : agree (let m1 := adjust c false (Some dl) 0 m in
      with_host (fold_left (fun h o => say o h) (macro_execute mac (c_macro_seq_timeout c)) (m_host m1)) m1)
    (emits (macro_execute mac (c_macro_seq_timeout (k_cfg k))) (update_mods false k (Some dl) 0))).
  { cbv zeta. rewrite (proj1 A). rewrite says_out, (proj1 (proj2 A0)). destruct A0 as (E & H & L). split; [exact E|].
    split; [reflexivity|exact L]. }
  unfold type, execute_macro. destruct mac as [|[[] d] [|? ?]]; try exact G.
  apply agree_strike, agree_strike, agree_adjust, A.
Qed.

(* ---- counts ------------------------------------------------------------------------- *)
Definition b2 (b : bool) : nat := if b then 1 else 0.
Definition count (m : machine) (i : nat) : nat :=
  length (filter (kept_by i) (m_held m)) + b2 (mem i (m_locked m)) + count_occ Nat.eq_dec (m_shots m) i
  + b2 (Nat.eqb i 0) + b2 (Nat.eqb i (m_layout m) && negb (Nat.eqb i 0)).
Lemma existsb_filter {A} (f : A -> bool) l : existsb f l = Nat.ltb 0 (length (filter f l)).
Proof. induction l as [|x l IH]; cbn; [reflexivity|]. destruct (f x); cbn; auto. Qed.
Lemma mem_count i l : mem i l = Nat.ltb 0 (count_occ Nat.eq_dec l i).
Proof.
  apply eq_true_iff_eq. unfold mem. rewrite existsb_exists, Nat.ltb_lt. split.
  - intros (x & H & E). apply Nat.eqb_eq in E. subst x. now apply count_occ_In.
  - intros H. exists i. split; [now apply count_occ_In in H|apply Nat.eqb_refl].
Qed.
Lemma lit_count m i : lit m i = Nat.ltb 0 (count m i).
Proof.
  unfold SpecRef.lit, count. rewrite existsb_filter, (mem_count i (m_shots m)).
  destruct (Nat.eqb_spec i 0), (Nat.eqb i (m_layout m)), (mem i (m_locked m)); cbn [b2 orb andb negb];
    apply eq_true_iff_eq; rewrite ?orb_true_iff, ?Nat.ltb_lt; intuition lia.
Qed.
Definition bump (a : nat -> nat) (l i : nat) : nat := if Nat.eqb i l then S (a i) else a i.

Lemma dawn_range : (1 <= dawn c <= 2)%Z.
Proof. unfold dawn. destruct (existsb _ _); lia. Qed.
Lemma dawn_layout l : l <> 0 -> l < length (c_layers c) /\ ly_type (the c l) = LLayout -> dawn c = 2%Z.
Proof.
  intros H0 [Hl Ht]. unfold dawn. assert (existsb (fun i => is_layout (ly_type (the c i))) (seq 1 (length (c_layers c) - 1)) = true) as ->; [|reflexivity].
  apply existsb_exists. exists l. split; [apply in_seq; lia|now rewrite Ht].
Qed.

(* ---- the simulation relation -------------------------------------------------------- *)
Variable pe : fringe.
Variable vw : N -> desc -> desc.    (* how remembered actions are read *)
Definition used (ca : list centry) : list (N * (desc * nat)) :=
  map (fun e => (ce_code e, (vw (ce_code e) (ce_d e), ce_dl e))) (filter (fun e => negb (ce_code e =? 0)%N) ca).

(* the layer remembered for a key: the one its action keeps on.  For x, which is just being
   pressed, it is not yet written down. *)
Definition mark (d : desc) : nat := match keeps d with Some l => l | None => 0 end.
Record rest_of (a : nat -> nat) (x : N) (held : list (N * (desc * nat))) (seats : list N) (locked shots recent : list nat) (layout : nat)
  (armed : bool) (until since : Z) (struck : N) (repeat : option (nat * nat * Z * Z)) (simple : Z) (k : kbd) : Prop := Rest {
  r_cfg : k_cfg k = c;
  r_seats : map ce_code (k_cache k) = seats;
  r_marks : swapping c = true -> forall e, In e (k_cache k) -> ce_code e <> 0%N ->
    ce_layer e = if (ce_code e =? x)%N then 0 else mark (vw (ce_code e) (ce_d e));
  r_unlocked : swapping c = true -> locked = [];
  r_used : Permutation (used (k_cache k)) held;
  r_nodup : NoDup (map fst held);
  r_size : length (k_cache k) = 16;
  r_act : forall i, l_active (k_ls k i) = N.of_nat (a i);
  r_tog : forall i, l_toggled (k_ls k i) = mem i locked;
  r_shot : forall i, l_depth (k_ls k i) = N.of_nat (count_occ Nat.eq_dec shots i);
  r_held : forall h, In h held -> settled_action c (fst (snd h));
  r_locked : forall i, mem i locked = true -> i <> 0 /\ a_layer c i;
  r_shots : forall i, In i shots -> a_layer c i;
  r_layout : layout = 0 \/ (layout < length (c_layers c) /\ ly_type (the c layout) = LLayout);
  r_layouts : forall i, i <> 0 -> ly_type (the c i) = LLayout -> a i = b2 (Nat.eqb i layout);
  r_sorted : StronglySorted (fun i j => (l_time (k_ls k j) < l_time (k_ls k i))%Z) recent;
  r_recent : forall i, In i recent -> (dawn c <= l_time (k_ls k i) < k_clock k)%Z /\ a_layer c i;
  r_old : forall i, ~ In i recent -> (0 <= l_time (k_ls k i) <= 1)%Z /\ (i = 0 \/ (l_time (k_ls k i) < dawn c)%Z);
  r_base : layout = 0 \/ l_time (k_ls k layout) = 1%Z;
  r_on : forall i, 0 < a i -> In i recent \/ i = layout \/ i = 0;
  r_clock : (dawn c <= k_clock k)%Z;
  r_armed : k_latch k = armed;
  r_until : k_oneshot_to k = until;
  r_since : k_ovl_start k = since;
  r_struck : k_last_code k = struck;
  r_repeat : match repeat with
             | None => k_amacro k = None
             | Some (n, dl, due, every) => k_amacro k = Some n /\ k_amacro_layer k = dl /\ k_macro_to k = due /\ k_repeat k = every
             end;
  r_simple : k_last_simple k = simple;
  r_pend : k_pend k = pe;
  r_chords : f_chords pe (k_chord k) (k_achords k)
}.
Definition rest (a : nat -> nat) (x : N) (m : machine) : kbd -> Prop :=
  rest_of a x (m_held m) (m_seats m) (m_locked m) (m_shots m) (m_recent m) (m_layout m) (m_armed m) (m_until m) (m_since m) (m_struck m) (m_repeat m) (m_simple m).
Definition sim (a : nat -> nat) (x : N) (m : machine) (k : kbd) : Prop := m_host m = host_of k /\ rest a x m k.
Definition S_ (m : machine) (k : kbd) : Prop := sim (count m) 0%N m k.

Lemma rest_keys a x m k k' : keys_only k k' -> rest a x m k -> rest a x m k'.
Proof. intros (l & s & o & ->) []. constructor; assumption. Qed.
Lemma rest_ext a b x m k : (forall i, a i = b i) -> rest a x m k -> rest b x m k.
Proof. intros H []. constructor; auto; intros; rewrite <- H in *; auto. Qed.
Lemma sim_ext a b x m k : (forall i, a i = b i) -> sim a x m k -> sim b x m k.
Proof. intros H [A B]. split; [exact A|]. now apply (rest_ext a). Qed.
Lemma agree_sim m k a x : sim a x m k -> (forall i, lit m i = Nat.ltb 0 (a i)) -> agree m k.
Proof.
  intros [H R] L. split; [apply R|]. split; [exact H|]. intros i _. rewrite L. unfold is_active. rewrite (r_act _ _ _ _ _ _ _ _ _ _ _ _ _ _ _ R).
  apply eq_true_iff_eq. rewrite Nat.ltb_lt, negb_true_iff, N.eqb_neq. lia.
Qed.
Lemma agree_S m k : S_ m k -> agree m k.
Proof. intros H. apply (agree_sim m k _ _ H). apply lit_count. Qed.
(* a function of the host only *)
Lemma sim_keys m k a x h k' : sim a x m k -> keys_only k k' -> h = host_of k' -> sim a x (with_host h m) k'.
Proof. intros [_ R] K ->. split; [reflexivity|]. apply (rest_keys a x m k k' K R). Qed.
Lemma S_keys m k h k' : S_ m k -> keys_only k k' -> h = host_of k' -> S_ (with_host h m) k'.
Proof. intros H. apply (sim_keys m k (count m) 0%N h k' H). Qed.
Lemma S_adjust m k q dl mods : S_ m k -> S_ (adjust c q dl mods m) (update_mods q k dl mods).
Proof.
  intros H. pose proof (host_adjust m k q dl mods (agree_S _ _ H)) as E. unfold adjust in *.
  eapply S_keys; [exact H|apply update_mods_only|exact E].
Qed.
Lemma S_strike m k x p : S_ m k -> S_ (strike x p m) (send_key k x p).
Proof. intros H. apply (S_keys m k); [exact H|apply send_key_only|]. rewrite host_send. now rewrite (proj1 H). Qed.
Lemma type_with dl mac m : type c dl mac m = with_host (m_host (type c dl mac m)) m.
Proof. unfold type. destruct mac as [|[[] d] [|? ?]]; reflexivity. Qed.
Lemma S_type m k dl mac : S_ m k -> S_ (type c dl mac m) (execute_macro k dl mac).
Proof.
  intros H. rewrite type_with. eapply S_keys; [exact H|apply execute_macro_only|].
  apply (agree_type m k dl mac (agree_S _ _ H)).
Qed.

(* ---- layers on and off -------------------------------------------------------------- *)
Lemma some_indicator m k : (forall i, lit m i = is_active k i) -> k_cfg k = c -> some_layer c m = indicator k.
Proof.
  intros L E. unfold some_layer, indicator, nlayers, layer_at, the. rewrite E.
  induction (seq 1 (length (c_layers c) - 1)) as [|i l IH]; cbn [existsb]; [reflexivity|]. now rewrite L, IH.
Qed.
Lemma lit_active m k : (forall i, l_active (k_ls k i) = N.of_nat (count m i)) -> forall i, lit m i = is_active k i.
Proof.
  intros H i. unfold is_active. rewrite H, lit_count. apply eq_true_iff_eq. rewrite Nat.ltb_lt, negb_true_iff, N.eqb_neq. lia.
Qed.

Lemma used_set_layer ca code l : used (set_ce_layer ca code l) = used ca.
Proof.
  unfold set_ce_layer. destruct (cache_find ca code 0) as [i|]; [|reflexivity]. unfold used.
  revert i. induction ca as [|e ca IH]; intros [|i]; cbn [upd nth filter map]; try reflexivity.
  - cbn [ce_code]. destruct (ce_code e =? 0)%N; reflexivity.
  - specialize (IH i). destruct (ce_code e =? 0)%N; cbn [negb map]; [exact IH|]. f_equal. exact IH.
Qed.
Lemma length_set_layer ca code l : length (set_ce_layer ca code l) = length ca.
Proof. unfold set_ce_layer. destruct (cache_find ca code 0); [apply upd_length|reflexivity]. Qed.
Lemma find_shift code : forall ca i, cache_find ca code (S i) = option_map S (cache_find ca code i).
Proof. induction ca as [|e ca IH]; intros i; cbn [cache_find option_map]; [reflexivity|]. destruct (_ =? _)%N; [reflexivity|apply IH]. Qed.
Lemma set_layer_cons e ca code l : set_ce_layer (e :: ca) code l =
  if (ce_code e =? code)%N then mkCe (ce_code e) (ce_d e) (ce_dl e) l :: ca else e :: set_ce_layer ca code l.
Proof.
  unfold set_ce_layer. cbn [cache_find]. destruct (ce_code e =? code)%N; [reflexivity|]. rewrite find_shift.
  destruct (cache_find ca code 0); reflexivity.
Qed.
Lemma codes_set_layer ca code l : map ce_code (set_ce_layer ca code l) = map ce_code ca.
Proof.
  induction ca as [|e ca IH]; [reflexivity|]. rewrite set_layer_cons. destruct (ce_code e =? code)%N; cbn [map ce_code]; [reflexivity|]. now rewrite IH.
Qed.
Lemma used_cons e ca : used (e :: ca) = if (ce_code e =? 0)%N then used ca else (ce_code e, (vw (ce_code e) (ce_d e), ce_dl e)) :: used ca.
Proof. unfold used. cbn [filter]. destruct (ce_code e =? 0)%N; reflexivity. Qed.
Lemma set_layer_In code l : forall ca e', NoDup (map fst (used ca)) -> In e' (set_ce_layer ca code l) -> ce_code e' <> 0%N ->
  (ce_code e' <> code /\ In e' ca) \/ (ce_code e' = code /\ ce_layer e' = l /\ In (code, (vw code (ce_d e'), ce_dl e')) (used ca)).
Proof.
  induction ca as [|e ca IH]; intros e' Nd I Hz; [destruct I|]. rewrite set_layer_cons in I. rewrite used_cons in Nd |- *.
  destruct (N.eqb_spec (ce_code e) code) as [Ec|Ec].
  - destruct I as [<-|I].
    + right. cbn [ce_code ce_d ce_dl ce_layer] in *. split; [exact Ec|]. split; [reflexivity|]. destruct (N.eqb_spec (ce_code e) 0); [contradiction|]. left. now rewrite Ec.
    + destruct (N.eq_dec (ce_code e') code) as [E'|E']; [|left; split; [exact E'|now right]]. exfalso.
      destruct (N.eqb_spec (ce_code e) 0); [congruence|]. cbn [map fst] in Nd. inversion_clear Nd as [|? ? N1 _]. apply N1. apply in_map_iff.
      exists (ce_code e', (vw (ce_code e') (ce_d e'), ce_dl e')). split; [cbn [fst]; congruence|]. unfold used. apply in_map_iff. exists e'. split; [reflexivity|].
      apply filter_In. split; [exact I|]. destruct (N.eqb_spec (ce_code e') 0); [contradiction|reflexivity].
  - destruct I as [<-|I]; [left; split; [exact Ec|now left]|].
    assert (Nd' : NoDup (map fst (used ca))) by (destruct (ce_code e =? 0)%N; [exact Nd|now inversion Nd]).
    destruct (IH e' Nd' I Hz) as [[A B]|(A & B & C)]; [left; split; [exact A|now right]|]. right. split; [exact A|]. split; [exact B|].
    destruct (ce_code e =? 0)%N; [exact C|now right].
Qed.
Lemma In_without i j l : In i (without j l) <-> In i l /\ i <> j.
Proof. unfold without. rewrite filter_In, negb_true_iff, Nat.eqb_neq. reflexivity. Qed.
Lemma sorted_filter {A} (R : A -> A -> Prop) f l : StronglySorted R l -> StronglySorted R (filter f l).
Proof.
  induction 1 as [|x l H IH F]; cbn [filter]; [constructor|]. destruct (f x); [|exact IH]. constructor; [exact IH|].
  rewrite Forall_forall in *. intros y Y. apply F. now apply filter_In in Y.
Qed.
Lemma sorted_weak {A} (R R' : A -> A -> Prop) l : (forall x y, In x l -> In y l -> R x y -> R' x y) -> StronglySorted R l -> StronglySorted R' l.
Proof.
  intros H X. induction X as [|x l X IH F]; constructor.
  - apply IH. intros; apply H; auto; now right.
  - rewrite Forall_forall in *. intros y Y. apply H; [now left|now right|auto].
Qed.

Lemma activate_sim a x m k code l k' : sim a x m k -> (forall i, bump a l i = count m i) -> a_layer c l -> a l < 255 ->
  x = 0%N \/ x = code -> (swapping c = true -> forall d dl, In (code, (d, dl)) (m_held m) -> keeps d = Some l) ->
  activate_layer k code l = Ok k' -> S_ (turn_on c l m) k'.
Proof.
  intros [H R] B Al La Hx Mk E. unfold activate_layer in E. bstep E u Eu. clear Eu u. cbv zeta in E.
  match type of E with Ok (emit (OLayer _ _ (indicator ?x)) _) = _ => set (k2 := x) in * end.
  apply Ok_inj in E. subst k'.
  assert (Act : forall i, l_active (k_ls k2 i) = N.of_nat (count m i)).
  { intros i. rewrite <- B. unfold bump. subst k2. cbn [k_ls set_k_cache set_k_clock set_lsi set_k_ls]. unfold nupd.
    destruct (Nat.eqb_spec i l) as [->|Hn]; cbn [l_active]; rewrite (r_act _ _ _ _ _ _ _ _ _ _ _ _ _ _ _ R); [|reflexivity].
    rewrite N.mod_small; lia. }
  assert (Ec : k_cfg k2 = c) by (exact (r_cfg _ _ _ _ _ _ _ _ _ _ _ _ _ _ _ R)).
  assert (Ti : forall i, l_time (k_ls k2 i) = if Nat.eqb i l then k_clock k else l_time (k_ls k i)).
  { intros i. subst k2. cbn [k_ls set_k_cache set_k_clock set_lsi set_k_ls]. unfold nupd. destruct (Nat.eqb i l); reflexivity. }
  split.
  - unfold turn_on, tell. cbn [m_host with_host]. unfold say. cbn [m_host with_recent]. rewrite H.
    rewrite (some_indicator (with_recent (l :: without l (m_recent m)) m) k2); [reflexivity| |exact Ec].
    apply (lit_active m k2 Act).
  - destruct R. unfold rest, turn_on, tell.
    cbn [m_held m_seats m_locked m_shots m_recent m_layout m_armed m_until m_since m_struck m_repeat m_simple with_host with_recent].
    assert (Hl0 : l = m_layout m -> m_layout m = 0).
    { intros ->. destruct r_layout0 as [X|[_ X]]; [exact X|]. now apply Al in X. }
    constructor; try assumption.
    + change (k_cache (emit _ k2)) with (set_ce_layer (k_cache k) code l). now rewrite codes_set_layer.
    + change (k_cache (emit _ k2)) with (set_ce_layer (k_cache k) code l). intros Sw e He Hz.
      assert (Nd : NoDup (map fst (used (k_cache k)))) by (eapply Permutation_NoDup; [apply Permutation_map, Permutation_sym; eassumption|assumption]).
      destruct (N.eqb_spec (ce_code e) 0); [contradiction|].
      destruct (set_layer_In code l (k_cache k) e Nd He Hz) as [[A1 A2]|(A1 & A2 & A3)].
      * rewrite (r_marks0 Sw e A2 Hz). destruct (N.eqb_spec (ce_code e) x) as [Ex|]; [|reflexivity]. destruct Hx; congruence.
      * rewrite A2. apply (Permutation_in _ r_used0) in A3. apply (Mk Sw) in A3. unfold mark. rewrite A1, A3. reflexivity.
    + change (k_cache (emit _ k2)) with (set_ce_layer (k_cache k) code l). now rewrite used_set_layer.
    + change (k_cache (emit _ k2)) with (set_ce_layer (k_cache k) code l). now rewrite length_set_layer.
    + intros i. rewrite <- r_tog0. subst k2. cbn [k_ls emit set_k_out set_k_cache set_k_clock set_lsi set_k_ls]. unfold nupd.
      destruct (Nat.eqb_spec i l) as [->|]; reflexivity.
    + intros i. rewrite <- r_shot0. subst k2. cbn [k_ls emit set_k_out set_k_cache set_k_clock set_lsi set_k_ls]. unfold nupd.
      destruct (Nat.eqb_spec i l) as [->|]; reflexivity.
    + intros i Hi Ht. change (count m i = b2 (Nat.eqb i (m_layout m))).
      assert (count m i = a i) as ->. { rewrite <- B. unfold bump. destruct (Nat.eqb_spec i l) as [->|]; [|reflexivity]. now apply Al in Ht. }
      now apply r_layouts0.
    + change (k_ls (emit _ k2)) with (k_ls k2). constructor.
      * apply (sorted_weak (fun i j => (l_time (k_ls k j) < l_time (k_ls k i))%Z)); [|now apply sorted_filter].
        intros x0 y X Y. apply In_without in X as [X X'], Y as [Y Y'] . rewrite !Ti.
        destruct (Nat.eqb_spec x0 l); [contradiction|]. destruct (Nat.eqb_spec y l); [contradiction|auto].
      * apply Forall_forall. intros y Y. apply In_without in Y as [Y Y']. rewrite !Ti, Nat.eqb_refl.
        destruct (Nat.eqb_spec y l); [contradiction|]. apply r_recent0 in Y. lia.
    + intros i [<-|Hi]; change (k_ls (emit _ k2)) with (k_ls k2); change (k_clock (emit _ k2)) with (k_clock k + 1)%Z; rewrite Ti.
      * rewrite Nat.eqb_refl. split; [lia|exact Al].
      * apply In_without in Hi as [Hi Hn]. destruct (Nat.eqb_spec i l); [contradiction|]. apply r_recent0 in Hi as [X Y]. split; [lia|exact Y].
    + intros i Hi. change (k_ls (emit _ k2)) with (k_ls k2). rewrite Ti.
      destruct (Nat.eqb_spec i l) as [->|Hn]; [exfalso; apply Hi; now left|]. apply r_old0. intros X. apply Hi. right. now apply In_without.
    + change (k_ls (emit _ k2)) with (k_ls k2). rewrite Ti.
      destruct (Nat.eqb_spec (m_layout m) l) as [E|E]; [left; now apply Hl0|exact r_base0].
    + intros i Hi. change (0 < count m i) in Hi. rewrite <- B in Hi. unfold bump in Hi.
      destruct (Nat.eqb_spec i l) as [Ei|Hn]; [left; left; now symmetry|]. apply r_on0 in Hi as [Hi|Hi]; [|now right].
      left. right. now apply In_without.
    + change (k_clock (emit _ k2)) with (k_clock k + 1)%Z. lia.
Qed.

Lemma deactivate_sim a x m k l k' : sim a x m k -> (forall i, a i = bump (count m) l i) -> a_layer c l ->
  deactivate_layer k l = Ok k' -> sim (count m) x (tell c l false m) k'.
Proof.
  intros [H R] B Al E. unfold deactivate_layer in E. bstep E u Eu. clear Eu u. cbv zeta in E.
  destruct (l_active (k_ls k l) =? 0)%N; [discriminate|].
  match type of E with Ok (emit (OLayer _ _ (indicator ?x)) _) = _ => set (k2 := x) in * end.
  apply Ok_inj in E. subst k'.
  assert (Act : forall i, l_active (k_ls k2 i) = N.of_nat (count m i)).
  { intros i. subst k2. cbn [k_ls set_lsi set_k_ls]. unfold nupd.
    destruct (Nat.eqb_spec i l) as [->|Hn]; cbn [l_active set_l_active]; rewrite (r_act _ _ _ _ _ _ _ _ _ _ _ _ _ _ _ R), B; unfold bump.
    - rewrite Nat.eqb_refl. lia.
    - destruct (Nat.eqb_spec i l); [contradiction|reflexivity]. }
  assert (Ec : k_cfg k2 = c) by (exact (r_cfg _ _ _ _ _ _ _ _ _ _ _ _ _ _ _ R)).
  assert (Ti : forall i, l_time (k_ls k2 i) = l_time (k_ls k i) /\ l_toggled (k_ls k2 i) = l_toggled (k_ls k i) /\ l_depth (k_ls k2 i) = l_depth (k_ls k i)).
  { intros i. subst k2. cbn [k_ls set_lsi set_k_ls]. unfold nupd. destruct (Nat.eqb_spec i l) as [->|]; auto. }
  split.
  - unfold tell. cbn [m_host with_host]. unfold say. rewrite H.
    rewrite (some_indicator m k2); [reflexivity| |exact Ec]. apply (lit_active m k2 Act).
  - destruct R. unfold rest, tell.
    cbn [m_held m_seats m_locked m_shots m_recent m_layout m_armed m_until m_since m_struck m_repeat m_simple with_host].
    change (k_ls k2) with (k_ls (emit (OLayer l false (indicator k2)) k2)) in Ti, Act.
    assert (Le : forall i, count m i <= a i). { intros i. rewrite B. unfold bump. destruct (Nat.eqb i l); lia. }
    constructor; try assumption; try (intros i; destruct (Ti i) as (T1 & T2 & T3); rewrite ?T1, ?T2, ?T3; auto; fail).
    + intros i Hi Ht. change (count m i = b2 (Nat.eqb i (m_layout m))). rewrite <- (r_layouts0 i Hi Ht), B. unfold bump.
      destruct (Nat.eqb_spec i l) as [->|]; [now apply Al in Ht|reflexivity].
    + eapply sorted_weak; [|exact r_sorted0]. intros x0 y _ _. destruct (Ti x0) as (-> & _), (Ti y) as (-> & _). auto.
    + destruct (Ti (m_layout m)) as (-> & _). exact r_base0.
    + intros i Hi. apply r_on0. change (0 < count m i) in Hi. specialize (Le i). lia.
Qed.

Lemma count_remove i l j : In i l -> count_occ Nat.eq_dec l j = (if Nat.eqb j i then 1 else 0) + count_occ Nat.eq_dec (remove_one i l) j.
Proof.
  induction l as [|x l IH]; intros H; [destruct H|]. cbn [remove_one]. destruct (Nat.eqb_spec x i) as [->|Hn].
  - cbn [count_occ]. destruct (Nat.eq_dec i j) as [->|E]; [now rewrite Nat.eqb_refl|]. destruct (Nat.eqb_spec j i); [congruence|reflexivity].
  - destruct H as [H|H]; [congruence|]. cbn [count_occ]. rewrite (IH H). destruct (Nat.eq_dec x j); lia.
Qed.
Lemma In_remove i l j : In j (remove_one i l) -> In j l.
Proof.
  induction l as [|x l IH]; cbn [remove_one]; [auto|]. destruct (Nat.eqb x i); cbn [In]; [auto|]. intros [H|H]; auto.
Qed.
Lemma end_shot_sim m k i k1 : S_ m k -> In i (m_shots m) -> deactivate_layer k i = Ok k1 ->
  S_ (end_shot c m i) (set_lsi i (set_l_depth (l_depth (k_ls k1 i) - 1) (k_ls k1 i)) k1).
Proof.
  intros [H R] Hi E. set (m' := with_shots (remove_one i (m_shots m)) m).
  assert (Ai : a_layer c i) by (now apply (r_shots _ _ _ _ _ _ _ _ _ _ _ _ _ _ _ R)).
  assert (B : forall j, count m j = bump (count m') i j).
  { intros j. unfold bump, count, m'. cbn [m_held m_seats m_locked m_shots m_layout with_shots]. rewrite (count_remove i _ j Hi).
    destruct (Nat.eqb j i); lia. }
  unfold deactivate_layer in E. bstep E u Eu. clear Eu u. cbv zeta in E.
  destruct (l_active (k_ls k i) =? 0)%N; [discriminate|].
  match type of E with Ok (emit (OLayer _ _ (indicator ?x)) _) = _ => set (k2 := x) in * end.
  apply Ok_inj in E. subst k1.
  assert (Act2 : forall j, l_active (k_ls k2 j) = N.of_nat (count m' j)).
  { intros j. subst k2. cbn [k_ls set_lsi set_k_ls]. unfold nupd.
    destruct (Nat.eqb_spec j i) as [->|Hn]; cbn [l_active set_l_active]; rewrite (r_act _ _ _ _ _ _ _ _ _ _ _ _ _ _ _ R), B; unfold bump.
    - rewrite Nat.eqb_refl. lia.
    - destruct (Nat.eqb_spec j i); [contradiction|reflexivity]. }
  assert (Ec : k_cfg k2 = c) by (exact (r_cfg _ _ _ _ _ _ _ _ _ _ _ _ _ _ _ R)).
  set (k3 := set_lsi _ _ _).
  assert (F : forall j, l_active (k_ls k3 j) = N.of_nat (count m' j) /\ l_time (k_ls k3 j) = l_time (k_ls k j)
      /\ l_toggled (k_ls k3 j) = l_toggled (k_ls k j) /\ l_depth (k_ls k3 j) = N.of_nat (count_occ Nat.eq_dec (m_shots m') j)).
  { intros j. rewrite <- Act2. pose proof (r_shot _ _ _ _ _ _ _ _ _ _ _ _ _ _ _ R j) as D. rewrite (count_remove i _ j Hi) in D.
    subst k3 k2. cbn [k_ls emit set_k_out set_lsi set_k_ls]. unfold nupd. rewrite Nat.eqb_refl.
    destruct (Nat.eqb_spec j i) as [Ej|Hn]; [subst j|]; cbn [l_active l_time l_toggled l_depth set_l_depth set_l_active]; (split; [reflexivity|]);
      (split; [reflexivity|]); (split; [reflexivity|]); unfold m'; cbn [m_shots with_shots]; lia. }
  split.
  - unfold end_shot, tell. fold m'. cbn [m_host with_host]. unfold say. change (m_host m') with (m_host m). rewrite H.
    rewrite (some_indicator m' k2); [reflexivity| |exact Ec]. apply (lit_active m' k2 Act2).
  - destruct R. unfold rest, end_shot, tell. fold m'.
    cbn [m_held m_seats m_locked m_recent m_layout m_armed m_until m_since m_struck m_repeat m_simple with_host].
    assert (Le : forall j, count m' j <= count m j). { intros j. rewrite B. unfold bump. destruct (Nat.eqb j i); lia. }
    constructor; try assumption; try (intros j; destruct (F j) as (T1 & T2 & T3 & T4); rewrite ?T1, ?T2, ?T3, ?T4; auto; fail).
    + intros j Hj. apply r_shots0. now apply In_remove in Hj.
    + intros j Hj Ht. change (count m' j = b2 (Nat.eqb j (m_layout m))). rewrite <- (r_layouts0 j Hj Ht), B. unfold bump.
      destruct (Nat.eqb_spec j i) as [->|]; [now apply Ai in Ht|reflexivity].
    + eapply sorted_weak; [|exact r_sorted0]. intros x y _ _. destruct (F x) as (_ & -> & _), (F y) as (_ & -> & _). auto.
    + change (m_layout m') with (m_layout m). destruct (F (m_layout m)) as (_ & -> & _). exact r_base0.
    + intros j Hj. apply r_on0. change (0 < count m' j) in Hj. specialize (Le j). lia.
Qed.
Lemma shots_end_shot m i : m_shots (end_shot c m i) = remove_one i (m_shots m).
Proof. reflexivity. Qed.
Lemma drop_sim i : forall n m k k', S_ m k -> n <= count_occ Nat.eq_dec (m_shots m) i -> drop_oneshots n k i = Ok k' ->
  S_ (fold_left (end_shot c) (repeat i n) m) k'
  /\ forall j, j <> i -> count_occ Nat.eq_dec (m_shots (fold_left (end_shot c) (repeat i n) m)) j = count_occ Nat.eq_dec (m_shots m) j.
Proof.
  induction n as [|n IH]; intros m k k' H L E; cbn [drop_oneshots repeat fold_left] in *.
  - apply Ok_inj in E. subst k'. auto.
  - bstep E k1 E1. assert (Hi : In i (m_shots m)) by (apply (count_occ_In Nat.eq_dec); lia).
    pose proof (end_shot_sim m k i k1 H Hi E1) as H1. apply IH with (m := end_shot c m i) in E; [|exact H1|].
    + destruct E as [E E']. split; [exact E|]. intros j Hj. rewrite (E' j Hj), shots_end_shot, (count_remove i (m_shots m) j Hi).
      destruct (Nat.eqb_spec j i); [contradiction|reflexivity].
    + rewrite shots_end_shot. rewrite (count_remove i (m_shots m) i Hi), Nat.eqb_refl in L. lia.
Qed.
Lemma shots_sim : forall l m k k', NoDup l -> S_ m k -> clear_oneshot_layers l k = Ok k' ->
  S_ (fold_left (end_shot c) (flat_map (fun i => repeat i (count_occ Nat.eq_dec (m_shots m) i)) l) m) k'.
Proof.
  induction l as [|i l IH]; intros m k k' N H E; cbn [clear_oneshot_layers flat_map] in *.
  - apply Ok_inj in E. now subst k'.
  - bstep E k1 E1. inversion_clear N as [|? ? Ni Nl]. pose proof (r_shot _ _ _ _ _ _ _ _ _ _ _ _ _ _ _ (proj2 H) i) as D. rewrite D, Nat2N.id in E1.
    apply drop_sim with (m := m) in E1 as [H1 C1]; [|exact H|lia]. rewrite fold_left_app.
    apply IH with (m := fold_left (end_shot c) (repeat i (count_occ Nat.eq_dec (m_shots m) i)) m) in E; [|exact Nl|exact H1].
    replace (flat_map (fun i0 => repeat i0 (count_occ Nat.eq_dec (m_shots m) i0)) l)
      with (flat_map (fun i0 => repeat i0 (count_occ Nat.eq_dec (m_shots (fold_left (end_shot c) (repeat i (count_occ Nat.eq_dec (m_shots m) i)) m)) i0)) l);
      [exact E|].
    clear E IH Nl. induction l as [|j l IHl]; cbn [flat_map]; [reflexivity|]. rewrite C1 by (intros ->; apply Ni; now left). f_equal.
    apply IHl. intros X; apply Ni; now right.
Qed.
Lemma clear_oneshot_sim m k k' : S_ m k -> clear_oneshot k = Ok k' -> S_ (end_shots c m) k'.
Proof.
  intros H E. unfold clear_oneshot in E. bstep E k1 E1. apply Ok_inj in E. subst k'.
  assert (X : nlayers k = length (c_layers c)). { unfold nlayers. now rewrite (r_cfg _ _ _ _ _ _ _ _ _ _ _ _ _ _ _ (proj2 H)). }
  rewrite X in E1. apply shots_sim with (m := m) in E1; [|apply seq_NoDup|exact H]. fold (layers c) in E1.
  unfold end_shots. set (m1 := fold_left _ _ _) in *. destruct E1 as [H1 R]. split; [exact H1|].
  destruct R. constructor; try assumption; reflexivity.
Qed.

(* ---- clear and setlayout ------------------------------------------------------------ *)
Lemma mem_In i l : mem i l = true <-> In i l.
Proof. rewrite mem_count, Nat.ltb_lt. symmetry. apply (count_occ_In Nat.eq_dec). Qed.
Lemma mem_without i j l : mem i (without j l) = mem i l && negb (Nat.eqb i j).
Proof. apply eq_true_iff_eq. rewrite andb_true_iff, !mem_In, In_without, negb_true_iff, Nat.eqb_neq. reflexivity. Qed.
Lemma unlock_sim m k i k' : S_ m k -> mem i (m_locked m) = true ->
  deactivate_layer (set_lsi i (set_l_toggled false (k_ls k i)) k) i = Ok k' -> S_ (unlock c m i) k'.
Proof.
  intros [H R] Hi E. destruct (r_locked _ _ _ _ _ _ _ _ _ _ _ _ _ _ _ R i Hi) as [H0 Al].
  apply (deactivate_sim (count m) 0%N) with (m := with_locked (without i (m_locked m)) m) in E; [exact E| | |exact Al].
  - split; [exact H|]. destruct R. unfold rest. cbn [m_held m_seats m_locked m_shots m_recent m_layout m_armed m_until m_since m_struck m_repeat m_simple with_locked].
    assert (F : forall j, l_active (k_ls (set_lsi i (set_l_toggled false (k_ls k i)) k) j) = l_active (k_ls k j)
      /\ l_time (k_ls (set_lsi i (set_l_toggled false (k_ls k i)) k) j) = l_time (k_ls k j)
      /\ l_depth (k_ls (set_lsi i (set_l_toggled false (k_ls k i)) k) j) = l_depth (k_ls k j)).
    { intros j. cbn [k_ls set_lsi set_k_ls]. unfold nupd. destruct (Nat.eqb_spec j i) as [Ej|]; [subst j|]; auto. }
    constructor; try assumption; try (intros j; destruct (F j) as (T1 & T2 & T3); rewrite ?T1, ?T2, ?T3; auto; fail).
    + intros Sw. rewrite (r_unlocked0 Sw). reflexivity.
    + intros j. cbn [k_ls set_lsi set_k_ls]. unfold nupd. rewrite mem_without.
      destruct (Nat.eqb_spec j i) as [Ej|]; [subst j; cbn [l_toggled set_l_toggled negb]; now rewrite andb_false_r|].
      cbn [negb]. now rewrite andb_true_r.
    + intros j Hj. rewrite mem_without in Hj. apply andb_true_iff in Hj as [Hj _]. auto.
    + eapply sorted_weak; [|exact r_sorted0]. intros x y _ _. destruct (F x) as (_ & -> & _), (F y) as (_ & -> & _). auto.
    + destruct (F (m_layout m)) as (_ & -> & _). exact r_base0.
  - intros j. unfold bump, count. cbn [m_held m_seats m_locked m_shots m_layout with_locked]. rewrite mem_without.
    destruct (Nat.eqb_spec j i) as [Ej|Hn]; [subst j; rewrite Hi; cbn [b2 andb negb]; lia|]. cbn [negb]. rewrite andb_true_r. lia.
Qed.
Lemma locked_unlock m i : m_locked (unlock c m i) = without i (m_locked m).
Proof. reflexivity. Qed.
Lemma unlocks_sim : forall l m k k', NoDup l -> S_ m k -> clear_toggled l k = Ok k' ->
  S_ (fold_left (unlock c) (filter (fun i => mem i (m_locked m)) l) m) k'.
Proof.
  induction l as [|i l IH]; intros m k k' N H E; cbn [clear_toggled filter] in *.
  - apply Ok_inj in E. now subst k'.
  - inversion_clear N as [|? ? Ni Nl]. bstep E k1 E1.
    assert (X : negb (is_layout (ly_type (layer_at k i))) && l_toggled (k_ls k i) = mem i (m_locked m)).
    { destruct H as [_ R]. rewrite (r_tog _ _ _ _ _ _ _ _ _ _ _ _ _ _ _ R i). destruct (mem i (m_locked m)) eqn:M; [|apply andb_false_r].
      apply (r_locked _ _ _ _ _ _ _ _ _ _ _ _ _ _ _ R) in M as [_ [_ M]]. rewrite andb_true_r. unfold layer_at.
      rewrite (r_cfg _ _ _ _ _ _ _ _ _ _ _ _ _ _ _ R). unfold the in M. revert M. generalize (ly_type (nth i (c_layers c) zero_layer)). intros []; [reflexivity|intros M; now elim M|reflexivity]. }
    rewrite X in E1. destruct (mem i (m_locked m)) eqn:M.
    + apply (unlock_sim m k i k1 H M) in E1. cbn [fold_left]. apply IH with (m := unlock c m i) in E; [|exact Nl|exact E1].
      rewrite locked_unlock in E. replace (filter (fun i0 => mem i0 (m_locked m)) l) with (filter (fun i0 => mem i0 (without i (m_locked m))) l); [exact E|].
      apply filter_ext_in. intros j Hj. rewrite mem_without. destruct (Nat.eqb_spec j i) as [->|]; [contradiction|]. apply andb_true_r.
    + apply Ok_inj in E1. subst k1. now apply (IH m) in E.
Qed.
Lemma reset_key_only k i : keys_only k (reset_key k i) /\ host_of (reset_key k i) = let_up (host_of k) i.
Proof.
  unfold reset_key, let_up. cbn [host_of o_down o_last o_log]. destruct (k_ks k (N.of_nat i)); [|split; [apply keys_only_refl|reflexivity]].
  split; [|reflexivity]. exists (k_last_out k), (fupd (k_ks k) (N.of_nat i) false), (OKey (N.of_nat i) false :: k_out k). destruct k; reflexivity.
Qed.
Lemma reset_keys : forall l k, keys_only k (fold_left reset_key l k) /\ host_of (fold_left reset_key l k) = fold_left let_up l (host_of k).
Proof.
  induction l as [|i l IH]; intros k; cbn [fold_left]; [split; [apply keys_only_refl|reflexivity]|].
  destruct (IH (reset_key k i)) as [A B], (reset_key_only k i) as [D F]. split; [eapply keys_only_trans; eassumption|]. now rewrite B, F.
Qed.
Lemma clear_sim m k k' : S_ m k -> clear k = Ok k' -> S_ (reset c m) k'.
Proof.
  intros H E. unfold clear in E. bstep E k1 E1. bstep E k2 E2. apply Ok_inj in E. subst k'.
  apply (clear_oneshot_sim m) in E1; [|exact H]. set (m1 := end_shots c m) in *.
  assert (X : nlayers k1 = length (c_layers c)). { unfold nlayers. now rewrite (r_cfg _ _ _ _ _ _ _ _ _ _ _ _ _ _ _ (proj2 E1)). }
  rewrite X in E2. apply (unlocks_sim _ m1) in E2; [|apply seq_NoDup|exact E1]. unfold reset. fold m1. cbv zeta.
  set (m2 := fold_left _ _ m1) in *.
  assert (S3 : S_ (with_repeat None m2) (set_k_amacro None k2)).
  { destruct E2 as [A R]. split; [exact A|]. destruct R. constructor; try assumption; reflexivity. }
  unfold reset_keystate. destruct (reset_keys (seq 0 256) (set_k_amacro None k2)) as [K Hh].
  apply (S_keys _ _ _ _ S3 K). rewrite Hh. f_equal. exact (proj1 S3).
Qed.
Lemma drop_layouts : forall l k, k_cfg k = c -> k_cfg (fold_left drop_layout l k) = c /\
  (exists f, fold_left drop_layout l k = set_k_ls f k /\ forall i,
     f i = (if existsb (Nat.eqb i) l && is_layout (ly_type (the c i)) then set_l_active 0 (k_ls k i) else k_ls k i)).
Proof.
  induction l as [|x l IH]; intros k E; cbn [fold_left].
  - split; [exact E|]. exists (k_ls k). split; [destruct k; reflexivity|]. intros i. reflexivity.
  - assert (E1 : k_cfg (drop_layout k x) = c) by (unfold drop_layout; destruct (is_layout _); exact E).
    destruct (IH _ E1) as (A & f & B & F). split; [exact A|]. exists f. split.
    + rewrite B. unfold drop_layout. destruct (is_layout _); [reflexivity|]. destruct k; reflexivity.
    + intros i. rewrite F. cbn [existsb]. unfold drop_layout, layer_at. rewrite E. fold (the c x).
      destruct (Nat.eqb_spec i x) as [->|Hn]; cbn [orb andb].
      * destruct (is_layout (ly_type (the c x))); cbn [andb]; [|now rewrite !andb_false_r].
        rewrite !andb_true_r. cbn [k_ls set_lsi set_k_ls]. unfold nupd. rewrite Nat.eqb_refl. destruct (existsb _ l); reflexivity.
      * destruct (is_layout (ly_type (the c x))); [|reflexivity].
        cbn [k_ls set_lsi set_k_ls]. unfold nupd. destruct (Nat.eqb_spec i x); [contradiction|reflexivity].
Qed.
Definition change_layout (l : nat) (k : kbd) : kbd :=
  let k2 := fold_left drop_layout (seq 1 (nlayers k - 1)) k in
  let k3 := if Nat.eqb l 0 then k2 else set_lsi l (set_l_time 1 (set_l_active 1 (k_ls k2 l))) k2 in
  emit (OLayer l true (indicator k3)) k3.
Lemma setlayout_change k l k' : setlayout k l = Ok k' -> exists k1, clear k = Ok k1 /\ k' = change_layout l k1.
Proof.
  unfold setlayout. intros E. bstep E u Eu. bstep E k1 E1. exists k1. split; [exact E1|].
  apply Ok_inj in E. symmetry. exact E.
Qed.
Lemma change_layout_sim m k l : S_ m k -> l = 0 \/ (l < length (c_layers c) /\ ly_type (the c l) = LLayout) ->
  S_ (tell c l true (with_layout l m)) (change_layout l k).
Proof.
  intros [H R] Hl. unfold change_layout. cbv zeta. remember (change_layout l k) as k' eqn:E0.
  pose proof (r_cfg _ _ _ _ _ _ _ _ _ _ _ _ _ _ _ R) as Ec. unfold nlayers. rewrite Ec. clear E0 k'.
  destruct (drop_layouts (seq 1 (length (c_layers c) - 1)) k Ec) as (_ & f & B & F). rewrite B. clear B.
  match goal with |- S_ _ (emit (OLayer _ _ (indicator ?x)) _) => set (k3 := x) in * end.
  set (m' := with_layout l m).
  assert (K3 : exists g, k3 = set_k_ls g k /\ forall i, l_active (g i) = N.of_nat (count m' i) /\ l_toggled (g i) = l_toggled (k_ls k i)
      /\ l_depth (g i) = l_depth (k_ls k i) /\ l_time (g i) = (if negb (Nat.eqb l 0) && Nat.eqb i l then 1%Z else l_time (k_ls k i))).
  { assert (Fi : forall i, l_active (f i) = (if negb (Nat.eqb i 0) && is_layout (ly_type (the c i)) then 0%N else N.of_nat (count m i))
        /\ l_toggled (f i) = l_toggled (k_ls k i) /\ l_depth (f i) = l_depth (k_ls k i) /\ l_time (f i) = l_time (k_ls k i)).
    { intros i. rewrite F.
      assert (X : existsb (Nat.eqb i) (seq 1 (length (c_layers c) - 1)) && is_layout (ly_type (the c i)) = negb (Nat.eqb i 0) && is_layout (ly_type (the c i))).
      { destruct (is_layout (ly_type (the c i))) eqn:T; [|now rewrite !andb_false_r]. rewrite !andb_true_r.
        apply eq_true_iff_eq. rewrite existsb_exists, negb_true_iff, Nat.eqb_neq. split.
        - intros (x & X1 & X2). apply Nat.eqb_eq in X2. subst x. apply in_seq in X1. lia.
        - intros X. exists i. rewrite Nat.eqb_refl. split; [|reflexivity]. apply in_seq.
          destruct (Nat.lt_ge_cases i (length (c_layers c))) as [L|L]; [lia|]. unfold the in T. rewrite nth_overflow in T by exact L. discriminate. }
      rewrite X. pose proof (r_act _ _ _ _ _ _ _ _ _ _ _ _ _ _ _ R i) as Ai.
      destruct (negb (Nat.eqb i 0) && is_layout (ly_type (the c i))); cbn [l_active l_toggled l_depth l_time set_l_active]; auto. }
    (* what the layers have besides the layout *)
    assert (Co : forall i, count m' i = (if negb (Nat.eqb i 0) && is_layout (ly_type (the c i)) then 0 else count m i) + b2 (Nat.eqb i l && negb (Nat.eqb i 0))).
    { intros i. pose proof (r_layouts _ _ _ _ _ _ _ _ _ _ _ _ _ _ _ R i) as La. pose proof (r_layout _ _ _ _ _ _ _ _ _ _ _ _ _ _ _ R) as Lo.
      unfold count in *. unfold m'. cbn [m_held m_seats m_locked m_shots m_layout with_layout]. destruct (Nat.eqb_spec i 0) as [E0|H0]; cbn [negb andb b2] in *.
      - rewrite !andb_false_r. cbn [b2]. lia.
      - rewrite !andb_true_r in *. destruct (is_layout (ly_type (the c i))) eqn:T.
        + assert (T' : ly_type (the c i) = LLayout) by (destruct (ly_type (the c i)); [discriminate|reflexivity|discriminate]).
          specialize (La H0 T'). lia.
        + destruct (Nat.eqb_spec i (m_layout m)) as [Y|Y]; [|cbn [b2]; lia]. subst i. destruct Lo as [Lo|[_ Lo]]; [congruence|].
          rewrite Lo in T. discriminate. }
    destruct (Nat.eqb_spec l 0) as [->|L0].
    - exists f. split; [reflexivity|]. intros i. destruct (Fi i) as (A1 & A2 & A3 & A4). rewrite A1, A2, A3, A4, Co. cbn [negb andb].
      split; [|auto]. destruct (Nat.eqb_spec i 0) as [E0|]; cbn [negb andb b2]; [lia|]. destruct (is_layout _); lia.
    - eexists. split; [reflexivity|]. intros i. cbn [k_ls set_k_ls]. unfold nupd. destruct (Fi i) as (A1 & A2 & A3 & A4).
      rewrite Co. destruct (Nat.eqb_spec i l) as [Ei|Hn]; [subst i|]; cbn [l_active l_toggled l_depth l_time set_l_active set_l_time negb andb].
      + destruct Hl as [Hl|[_ Hl]]; [contradiction|]. rewrite Hl, A2, A3. destruct (Nat.eqb_spec l 0); [contradiction|]. cbn. auto.
      + rewrite A1, A2, A3, A4. cbn [b2]. rewrite Nat.add_0_r. split; [|auto]. destruct (_ && _); reflexivity. }
  destruct K3 as (g & -> & G). assert (Ec3 : k_cfg (set_k_ls g k) = c) by exact Ec.
  assert (Act : forall i, l_active (k_ls (set_k_ls g k) i) = N.of_nat (count m' i)) by (intros i; apply G).
  split.
  - unfold tell. cbn [m_host with_host]. unfold say. change (m_host m') with (m_host m). rewrite H.
    rewrite (some_indicator m' (set_k_ls g k)); [reflexivity| |exact Ec]. apply (lit_active m' _ Act).
  - unfold rest, tell. fold m'. cbn [m_host with_host m_held m_seats m_locked m_shots m_recent m_layout m_armed m_until m_since m_struck m_repeat].
    destruct R. unfold m' at 1 2 3 4 5 6 7 8 9 10 11 12. cbn [m_held m_seats m_locked m_shots m_recent m_layout m_armed m_until m_since m_struck m_repeat m_simple with_layout].
    assert (Nr : negb (Nat.eqb l 0) = true -> ~ In l (m_recent m)).
    { intros X Y. apply r_recent0 in Y as [_ [_ Y]]. rewrite negb_true_iff, Nat.eqb_neq in X. destruct Hl as [Hl|[_ Hl]]; contradiction. }
    assert (Ti : forall i, In i (m_recent m) -> l_time (g i) = l_time (k_ls k i)).
    { intros i Hi. destruct (G i) as (_ & _ & _ & ->). destruct (negb (Nat.eqb l 0)) eqn:Z0; [|reflexivity].
      destruct (Nat.eqb_spec i l) as [->|]; [|reflexivity]. elim (Nr eq_refl Hi). }
    constructor; try assumption; try (intros i; destruct (G i) as (T1 & T2 & T3 & _); cbn [k_ls emit set_k_out set_k_ls]; rewrite ?T1, ?T2, ?T3; auto; fail).
    + intros i Hi Ht. change (count m' i = b2 (Nat.eqb i l)). unfold count, m'. cbn [m_held m_seats m_locked m_shots m_layout with_layout].
      specialize (r_layouts0 i Hi Ht). unfold count in r_layouts0. destruct (Nat.eqb_spec i 0); [contradiction|]. cbn [negb b2] in *.
      rewrite andb_true_r in *. lia.
    + eapply sorted_weak; [|exact r_sorted0]. intros x y X Y. cbn [k_ls emit set_k_out set_k_ls]. now rewrite (Ti x X), (Ti y Y).
    + intros i Hi. cbn [k_ls k_clock emit set_k_out set_k_ls]. rewrite (Ti i Hi). now apply r_recent0.
    + intros i Hi. cbn [k_ls emit set_k_out set_k_ls]. destruct (G i) as (_ & _ & _ & ->). destruct (_ && _) eqn:Z0; [|now apply r_old0].
      split; [lia|]. apply andb_true_iff in Z0 as [Z1 Z2]. rewrite negb_true_iff, Nat.eqb_neq in Z1. right.
      destruct Hl as [Hl|Hl]; [contradiction|]. pose proof (dawn_layout l Z1 Hl). lia.
    + cbn [k_ls emit set_k_out set_k_ls]. destruct (G l) as (_ & _ & _ & ->). destruct (Nat.eqb_spec l 0); [now left|right]. cbn [negb andb]. now rewrite Nat.eqb_refl.
    + intros i Hi. change (0 < count m' i) in Hi. destruct (Nat.eqb_spec i l) as [->|Hn]; [right; now left|].
      destruct (Nat.eqb_spec i 0) as [->|H0]; [right; now right|].
      assert (Y : 0 < count m i). { unfold count, m' in Hi. cbn [m_held m_seats m_locked m_shots m_layout with_layout] in Hi. unfold count.
        destruct (Nat.eqb_spec i l); [contradiction|]. cbn [andb b2] in Hi. lia. }
      pose proof Y as Y2. apply r_on0 in Y as [Y|[Y|Y]]; [now left| |contradiction].
      (* the former layout is off now *)
      exfalso. destruct r_layout0 as [Z0|[_ Z1]]; [congruence|]. rewrite <- Y in Z1. specialize (r_layouts0 i H0 Z1).
      unfold count in r_layouts0. unfold count, m' in Hi. cbn [m_held m_seats m_locked m_shots m_layout with_layout] in Hi.
      destruct (Nat.eqb_spec i l); [contradiction|]. destruct (Nat.eqb_spec i (m_layout m)); [|contradiction].
      destruct (Nat.eqb_spec i 0); [contradiction|]. cbn [andb b2 negb] in *. lia.
Qed.
Lemma setlayout_sim m k l k' : S_ m k -> l = 0 \/ (l < length (c_layers c) /\ ly_type (the c l) = LLayout) -> setlayout k l = Ok k' ->
  S_ (tell c l true (with_layout l (reset c m))) k'.
Proof.
  intros H Hl E. apply setlayout_change in E as (k1 & E1 & ->). apply (clear_sim m) in E1; [|exact H].
  apply change_layout_sim; assumption.
Qed.
End Ref.
