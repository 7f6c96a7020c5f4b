(* C44: unbound keys pass through unchanged. *)
From Coq Require Import String.
From Verif Require Import Base Lib Types Keys MacroExec Kbd Str MacroParse Config Match Device Daemon SpecDaemon
  DaemonProofs SpecMods SpecLookup SpecPlain ModsProofs LookupProofs PlainProofs SpecPass Hist PassProofs PropDaemon Steps SpecHist WfHist.
Local Open Scope list_scope.
Local Open Scope nat_scope.
Local Notation length := List.length.

Lemma forallb_map {A B} (g : A -> B) h l : forallb h (map g l) = forallb (fun x => h (g x)) l.
Proof. induction l as [|x l IH]; cbn [map forallb]; auto. now rewrite IH. Qed.
(* ---- the daemon at its start --------------------------------------------------------- *)
Lemma load_new : forall texts clk acc ents, load_files texts clk acc = Ok ents ->
  Forall (fun k => exists c, k = new_keyboard c clk) acc -> Forall (fun k => exists c, k = new_keyboard c clk) ents.
Proof.
  induction texts as [|t r IH]; cbn [load_files]; intros clk acc ents H F; [apply Ok_inj in H; now subst|].
  destruct (config_parse t) as [[c|]| | |]; cbn [bind] in H; try discriminate H; eapply IH; eauto.
Qed.
Lemma clear_none d l : (forall x, d_ks d x = false) -> fold_left clear_key l d = d.
Proof. intros H. induction l as [|i l IH]; cbn [fold_left]; auto. unfold clear_key at 2. now rewrite H. Qed.

Definition started (devs : list device) (d : dstate) : Prop :=
  d_out d = [] /\ d_active d = None /\ Forall (fun k => exists c, k = new_keyboard c 1) (d_ents d)
  /\ map dv_open (d_devs d) = map dv_open devs.
Lemma map_upd {A B} (g : A -> B) : forall (l : list A) i x, (forall y, nth_error l i = Some y -> g x = g y) -> map g (upd i x l) = map g l.
Proof.
  induction l as [|y l IH]; intros [|i] x H; cbn [upd map]; auto; [now rewrite (H y)|]. f_equal. apply IH. exact H.
Qed.
Lemma adds_started fuel wr devs : forall evs ts l l', Forall (fun e => exists i g, e = EvAdd i g) evs ->
  calls fuel wr evs ts l = Ok l' -> started devs (lp_d l) -> started devs (lp_d l').
Proof.
  induction evs as [|e evs IH]; cbn [calls]; intros ts l l' F H S; [apply Ok_inj in H; now subst|].
  inversion F as [|? ? (i & g & ->) F']; subst. unfold call in H. cbn [event_handler] in H.
  set (d := set_d_times _ _ (lp_d l)) in H. change (d_devs d) with (d_devs (lp_d l)) in H.
  destruct (nth_error (d_devs (lp_d l)) i) as [dv|] eqn:Ei; [|discriminate H]. cbn [bind] in H.
  eapply IH; [exact F'|exact H|]. cbn [lp_d]. destruct S as (S1 & S2 & S3 & S4).
  split; [exact S1|]. split; [exact S2|]. split; [exact S3|]. cbn [d_devs set_d_times set_d_devs]. rewrite <- S4.
  apply map_upd. intros y Hy. change (d_devs d) with (d_devs (lp_d l)) in Hy. rewrite Ei in Hy. injection Hy as <-.
  unfold manage_device. destruct (dv_virtual dv); auto. destruct (lookup_config_ent _ _ _); auto. destruct (_ || _); auto.
Qed.
Lemma start_started fuel wr texts devs grabs ts l : start fuel wr texts devs grabs ts = Ok l -> started devs (lp_d l).
Proof.
  unfold start, reload. intros H.
  change (d_clock (d_init [])) with 1%Z in H.
  destruct (load_files texts 1 []) as [ents| | |] eqn:El; cbn [bind] in H; try discriminate H.
  apply load_new in El; [|constructor].
  unfold clear_vkbd in H. rewrite clear_none in H by reflexivity.
  destruct (calls _ _ _ _ _) as [l1| | |] eqn:E; cbn [bind] in H; try discriminate H.
  apply Ok_inj in H. subst. cbn [lp_d]. eapply adds_started; [|exact E|].
  - apply Forall_forall. intros e He. apply in_map_iff in He as [i [<- _]]. eauto.
  - cbn [lp_d]. split; [reflexivity|]. split; [reflexivity|]. split; [exact El|reflexivity].
Qed.

(* A freshly started daemon, whatever its configurations and devices.  Only devices of
   keyboard p are used; what they deliver are events of keys that the configuration of
   p leaves alone, in any number, order and distribution over devices and rounds of the
   loop.  Then the loop runs, and the events of keys and buttons written are exactly the
   key events read, in this order, without the kernel's autorepeat and without presses
   of keys already down, releases of keys that are up, and presses while 16 keys
   are down.  (The event that completes the panic sequence is read but not handled.) *)
Theorem C44_passthrough : forall fuel wr texts devs grabs ts l0 p k rs,
  start (S (S fuel)) wr texts devs grabs ts = Ok l0 -> forallb dv_open devs = true ->
  deref (lp_d l0) p = Ok k -> (forall bit, ~ standing k bit) ->
  Forall (plain_round (d_devs (lp_d l0)) p k) rs ->
  exists l', loop (S (S fuel)) wr rs l0 = Ok l' /\
    exists reads unhandled, rev (lp_reads l') = reads ++ unhandled
      /\ length unhandled = (if lp_dead l' then 1 else 0)
      /\ written (rev (d_out (lp_d l'))) = map as_read (accepted 16 [] (flat_map strokes_read reads)).
Proof.
  intros fuel wr texts devs grabs ts l0 p k rs Hs Ho Hp Hm F.
  pose proof (start_started _ _ _ _ _ _ _ Hs) as (S1 & S2 & S3 & S4).
  apply start_fields in Hs as (_ & _ & Hdead & Hreads).
  unfold deref in Hp. destruct (Nat.eqb_spec (fst p) (d_gen (lp_d l0))) as [Hg|]; [|discriminate Hp].
  destruct (nth_error (d_ents (lp_d l0)) (snd p)) as [k1|] eqn:Ee; [|discriminate Hp]. apply Ok_inj in Hp. subst k1.
  rewrite Forall_forall in S3. destruct (S3 _ (nth_error_In _ _ Ee)) as [c ->].
  destruct (loop_inv c Hm p (d_devs (lp_d l0)) wr fuel) with (rs := rs) (l := l0) as (l' & E & [HI]).
  - rewrite <- (forallb_map dv_open (fun b => b)), S4, forallb_map. exact Ho.
  - exact F.
  - constructor. exists [], [], []. rewrite Hdead, Hreads, S1. split; [reflexivity|]. split; [reflexivity|].
    split; [reflexivity|]. split; [reflexivity|]. split; [constructor|]. split; [reflexivity|]. split; [now left|].
    exists (new_keyboard c 1). split; [now split|]. apply p_new.
  - exists l'. split; [exact E|]. destruct HI as (reads & extra & held & E1 & E2 & E3 & _). exists reads, extra. auto.
Qed.

(* Ordinary strokes, at most 16 keys down, are all accepted. *)
Theorem C44_strokes : forall evs held,
  strokes 16 held (map (fun x => mkKev (fst x) (snd x) 0%Z) evs) -> accepted 16 held evs = evs.
Proof.
  induction evs as [|[c b] evs IH]; intros held H; auto. cbn [map strokes ev_pressed ev_code fst snd] in H. destruct b.
  - destruct H as (H1 & H2 & H3). cbn [accepted]. destruct (in_dec N.eq_dec c held); [contradiction|].
    apply Nat.ltb_lt in H2. rewrite H2. now rewrite IH.
  - destruct H as (H1 & H2). cbn [accepted]. destruct (in_dec N.eq_dec c held); [|contradiction]. now rewrite IH.
Qed.

(* ---- the default configuration ------------------------------------------------------------ *)
(* Without user bindings every key and button is left alone, except the modifiers
   (right shift 54, right control 97, right meta 126). *)
Definition no_text : str := Eval vm_compute in concat (map (fun l => bs l ++ [10%N]) ["[ids]"; "*"]%string).
Definition no_binds : kbd := new_keyboard (cfg_of no_text) 1.
Definition right_mods : list N := [54; 97; 126]%N.
Definition plainb (c : N) : bool :=
  existsb (N.eqb c) buttons || existsb (N.eqb c) renamed
  || ((c <? 256) && negb (existsb (N.eqb c) internal) && negb (existsb (N.eqb c) [56; 125; 42; 29; 100]))%N.
Lemma in_existsb x l : In x l <-> existsb (N.eqb x) l = true.
Proof.
  rewrite existsb_exists. split; [intros H; exists x; now rewrite N.eqb_refl|].
  intros [y [H E]]. apply N.eqb_eq in E. now subst.
Qed.
Lemma plainb_iff c : plainb c = true <-> plain_code c.
Proof.
  unfold plainb, plain_code. rewrite !orb_true_iff, !andb_true_iff, !negb_true_iff, <- !not_true_iff_false, <- !in_existsb, N.ltb_lt.
  assert (M : (forall bit, ~ is_modifier bit c) <-> ~ In c [56; 125; 42; 29; 100]%N).
  { split.
    - intros H Hi. cbn [In] in Hi. destruct Hi as [<-|[<-|[<-|[<-|[<-|[]]]]]]; eapply H; constructor.
    - intros H bit Hm. apply H. destruct Hm; cbn [In]; auto 10. }
  rewrite M. tauto.
Qed.
Lemma plain_range c : plain_code c -> In c (map N.of_nat (seq 0 600)).
Proof.
  intros H. rewrite in_map_iff. exists (N.to_nat c). split; [apply N2Nat.id|]. apply in_seq.
  destruct H as [H|[H|(H & _)]]; [unfold buttons in H|unfold renamed in H|]; cbn [In] in H; lia.
Qed.
Lemma no_binds_check : forallb (fun c => negb (plainb c) || existsb (N.eqb c) right_mods
     || (looksb no_binds (inside c) (DKey (inside c) 0) 0 && unchordedb no_binds (inside c))) (map N.of_nat (seq 0 600)) = true.
Proof. vm_compute. reflexivity. Qed.
Theorem C44_default :
  config_parse no_text = Ok (Some (cfg_of no_text))
  /\ (forall bit, ~ standing no_binds bit)
  /\ forall c, plain_code c -> ~ In c right_mods -> left_alone no_binds (inside c).
Proof.
  assert (E : parsesb no_text = true) by (vm_compute; reflexivity). split; [now apply parsesb_ok|]. split.
  - intros bit (i & (Hi & Ha) & Hm).
    assert (L : forallb (fun i => (l_active (k_ls no_binds i) =? 0)%N || (layer_mods no_binds i =? 0)%N) (seq 0 (nlayers no_binds)) = true)
      by (vm_compute; reflexivity).
    rewrite forallb_forall in L. specialize (L i). rewrite in_seq in L. specialize (L (conj (Nat.le_0_l i) Hi)).
    apply orb_true_iff in L as [L|L]; apply N.eqb_eq in L; [contradiction|]. unfold in_set in Hm. rewrite L, N.land_0_r in Hm. now apply Hm.
  - intros c Hc Hn. pose proof no_binds_check as K. rewrite forallb_forall in K.
    specialize (K c (plain_range c Hc)). apply plainb_iff in Hc. rewrite Hc in K. cbn [negb orb] in K.
    apply orb_true_iff in K as [K|K]; [apply in_existsb in K; contradiction|]. apply andb_true_iff in K as [K1 K2].
    split; [|now apply unchordedb_ok]. eapply looksb_ok; [|exact K1]. apply (reach_init (fun _ => True)); [lia|exact Logic.I].
Qed.

(* ---- an example --------------------------------------------------------------------------- *)
(* two keyboards, a user binding of another key; strokes overlapping across keyboards,
   the kernel's autorepeat, mouse buttons, events of other types *)
Definition pass_text : str := Eval vm_compute in
  concat (map (fun l => bs l ++ [10%N]) ["[ids]"; "*"; "[main]"; "a = b"; "j+k = esc"]%string).
Definition syn : rd := REvent (mkIev 0 0 0).
Definition pass_rounds : list round :=
  [reading 1 5 [REvent (mkIev 4 4 458774)] [key 0x110 1; syn]; reading 5 6 [key 31 1; syn] [];
   reading 6 7 [key 31 1; key 31 2] []; reading 6 7 [key 31 0] [key 32 1; key 32 0; key 0x116 1]; reading 7 8 [] [key 0x110 0; key 0x116 0]].
Definition pass_start : res lstate := start 5 all_ok [pass_text] two (fun _ => true) 1.
Definition plain_readb (k : kbd) (r : rd) : bool :=
  match r with
  | RAgain => true
  | RError => false
  | REvent e =>
      if (ie_type e =? 1)%N
      then plainb (ie_code e) && (looksb k (inside (ie_code e)) (DKey (inside (ie_code e)) 0) 0 && unchordedb k (inside (ie_code e)))
           && ((0 <=? ie_value e) && (ie_value e <=? 2))%Z
      else negb (existsb (N.eqb (ie_type e)) [2; 3; 17]%N)
  end.
Lemma plain_readb_ok c k r : reach (fun _ => True) c k -> plain_readb k r = true -> plain_read k r.
Proof.
  intros Hr. destruct r as [e| |]; cbn [plain_readb plain_read]; auto; [|discriminate].
  destruct (ie_type e =? 1)%N.
  - rewrite !andb_true_iff, !Z.leb_le. intros [[H1 [H2 H3]] H4]. apply plainb_iff in H1. split; [exact H1|].
    split; [|exact H4]. split; [eapply looksb_ok; eauto|now apply unchordedb_ok].
  - rewrite negb_true_iff, <- not_true_iff_false, <- in_existsb. auto.
Qed.
(* two devices, both of keyboard p *)
Definition plain_roundb (devs : list device) (p : kptr) (k : kbd) (r : round) : bool :=
  match r_clients r, r_added r with [], [] => true | _, _ => false end
  && forallb (fun i => forallb (plain_readb k) (r_reads r i)
                  && match nth_error devs i with Some dv => match dv_data dv with Some q => kptr_eqb q p | None => false end | None => false end)
       (seq 0 2).
Lemma plain_roundb_ok c devs p k r : reach (fun _ => True) c k -> (forall i, 2 <= i -> r_reads r i = []) ->
  plain_roundb devs p k r = true -> plain_round devs p k r.
Proof.
  intros Hr H2 H. unfold plain_roundb in H. apply andb_true_iff in H as [H H3].
  destruct (r_clients r) eqn:E1; [|discriminate H]. destruct (r_added r) eqn:E2; [|discriminate H].
  split; [exact E1|]. split; [exact E2|]. rewrite forallb_forall in H3. intros i x Hx.
  assert (Hi : i < 2). { destruct (Nat.lt_ge_cases i 2) as [L|L]; auto. now rewrite (H2 i L) in Hx. }
  specialize (H3 i). rewrite in_seq in H3. specialize (H3 ltac:(lia)). apply andb_true_iff in H3 as [H3 H4].
  rewrite forallb_forall in H3. split; [eapply plain_readb_ok; eauto|].
  destruct (nth_error devs i) as [dv|]; [|discriminate H4]. exists dv. split; auto.
  destruct (dv_data dv) as [[a b]|]; [|discriminate H4]. unfold kptr_eqb in H4. apply andb_true_iff in H4 as [A B].
  apply Nat.eqb_eq in A, B. destruct p. cbn [fst snd] in *. now subst.
Qed.
Definition uout_eqb (a b : uout) : bool :=
  Bool.eqb (fst a) (fst b) && (ie_type (snd a) =? ie_type (snd b))%N && (ie_code (snd a) =? ie_code (snd b))%N
  && (ie_value (snd a) =? ie_value (snd b))%Z.
Fixpoint uouts_eqb (a b : list uout) : bool :=
  match a, b with
  | [], [] => true
  | x :: a, y :: b => uout_eqb x y && uouts_eqb a b
  | _, _ => false
  end.
Lemma uouts_eqb_iff : forall a b, uouts_eqb a b = true <-> a = b.
Proof.
  induction a as [|[x [xt xc xv]] a IH]; intros [|[y [yt yc yv]] b]; cbn [uouts_eqb]; try (split; congruence); try tauto.
  unfold uout_eqb. cbn [fst snd ie_type ie_code ie_value]. rewrite !andb_true_iff, IH, eqb_true_iff, !N.eqb_eq, Z.eqb_eq. split.
  - intros [[[[-> ->] ->] ->] ->]. reflexivity.
  - intros E. injection E as -> -> -> -> ->. auto.
Qed.
Definition no_modsb (k : kbd) : bool :=
  forallb (fun i => (l_active (k_ls k i) =? 0)%N || (layer_mods k i =? 0)%N) (seq 0 (nlayers k)).
Lemma no_modsb_ok k : no_modsb k = true -> forall bit, ~ standing k bit.
Proof.
  intros L bit (i & (Hi & Ha) & Hm). unfold no_modsb in L.
  rewrite forallb_forall in L. specialize (L i). rewrite in_seq in L. specialize (L (conj (Nat.le_0_l i) Hi)).
  apply orb_true_iff in L as [L|L]; apply N.eqb_eq in L; [contradiction|]. unfold in_set in Hm. rewrite L, N.land_0_r in Hm. now apply Hm.
Qed.
Example C44_example : exists l0 k l',
  start 5 all_ok [pass_text] two (fun _ => true) 1 = Ok l0 /\ forallb dv_open two = true
  /\ deref (lp_d l0) (1, 0) = Ok k /\ (forall bit, ~ standing k bit)
  /\ Forall (plain_round (d_devs (lp_d l0)) (1, 0) k) pass_rounds
  /\ loop 5 all_ok pass_rounds l0 = Ok l' /\ lp_dead l' = false
  /\ written (rev (d_out (lp_d l')))
     = map as_read [(0x110, true); (31, true); (31, false); (32, true); (32, false); (0x116, true); (0x110, false); (0x116, false)]%N.
Proof.
  assert (H : match start 5 all_ok [pass_text] two (fun _ => true) 1 with
    | Ok l0 => match deref (lp_d l0) (1, 0) with
        | Ok k => no_modsb k && forallb (plain_roundb (d_devs (lp_d l0)) (1, 0) k) pass_rounds
           && match loop 5 all_ok pass_rounds l0 with
              | Ok l' => negb (lp_dead l') && uouts_eqb (written (rev (d_out (lp_d l'))))
                  (map as_read [(0x110, true); (31, true); (31, false); (32, true); (32, false); (0x116, true); (0x110, false); (0x116, false)]%N)
              | _ => false end
        | _ => false end
    | _ => false end = true) by (vm_compute; reflexivity).
  destruct (start 5 all_ok [pass_text] two (fun _ => true) 1) as [l0| | |] eqn:Es; try discriminate H.
  destruct (deref (lp_d l0) (1, 0)) as [k| | |] eqn:Ek; try discriminate H.
  apply andb_true_iff in H as [H H3]. apply andb_true_iff in H as [H1 H2].
  destruct (loop 5 all_ok pass_rounds l0) as [l'| | |] eqn:El; try discriminate H3.
  apply andb_true_iff in H3 as [H3 H4]. apply negb_true_iff in H3. apply uouts_eqb_iff in H4.
  exists l0, k, l'. split; [reflexivity|]. split; [reflexivity|]. split; [exact Ek|]. split; [now apply no_modsb_ok|].
  split; [|auto].
  assert (Hr : exists c, reach (fun _ => True) c k).
  { pose proof (start_started _ _ _ _ _ _ _ Es) as (_ & _ & S3 & _). unfold deref in Ek.
    destruct (Nat.eqb _ _); [|discriminate Ek]. destruct (nth_error _ _) as [k1|] eqn:En; [|discriminate Ek].
    apply Ok_inj in Ek. subst k1. rewrite Forall_forall in S3. destruct (S3 _ (nth_error_In _ _ En)) as [c ->].
    exists c. apply reach_init; [lia|exact Logic.I]. }
  destruct Hr as [c Hr]. apply Forall_forall. intros r Hi. rewrite forallb_forall in H2.
  apply (plain_roundb_ok c); auto. cbn [pass_rounds In] in Hi.
  destruct Hi as [<-|[<-|[<-|[<-|[<-|[]]]]]]; intros [|[|i]] L; cbn [reading r_reads]; auto; lia.
Qed.

(* ---- what does not pass through ------------------------------------------------------------ *)
(* Codes below 256 that keyd uses for itself: with no binding at all, a stroke of such a
   key comes out as a mouse button or another key, as a scroll tick, or not at all.
   Among them are KEY_PROG1..4 (148, 149, 202, 203), which scroll, KEY_SCROLLDOWN (178),
   which is the button "back", KEY_SCROLLUP (177), which is "zoom". *)
Fixpoint rd_list_eqb (a : list (nat * rd)) (b : list rd) : bool :=
  match a, b with
  | [], [] => true
  | (_, REvent x) :: a, REvent y :: b =>
      (ie_type x =? ie_type y)%N && (ie_code x =? ie_code y)%N && (ie_value x =? ie_value y)%Z && rd_list_eqb a b
  | _, _ => false
  end.
Lemma rd_list_eqb_ok : forall a b, rd_list_eqb a b = true -> map snd a = b.
Proof.
  induction a as [|[i r] a IH]; intros [|y b]; cbn [rd_list_eqb]; auto; try discriminate; try (destruct r; discriminate).
  destruct r as [[t c v]| |]; try discriminate. destruct y as [[t' c' v']| |]; try discriminate.
  cbn [ie_type ie_code ie_value]. rewrite !andb_true_iff, !N.eqb_eq, Z.eqb_eq. intros [[[-> ->] ->] H]. cbn [map snd]. now rewrite (IH b).
Qed.
Theorem C44_internal_refuted : forall c, In c internal ->
  exists l, simulate 5 all_ok [no_text] two 1 [reading 1 5 [key c 1; key c 0] []] = Ok l
    /\ map snd (rev (lp_reads l)) = [key c 1; key c 0]
    /\ written (rev (d_out (lp_d l))) <> map as_read [(c, true); (c, false)].
Proof.
  assert (H : forallb (fun c =>
     match simulate 5 all_ok [no_text] two 1 [reading 1 5 [key c 1; key c 0] []] with
     | Ok l => rd_list_eqb (rev (lp_reads l)) [key c 1; key c 0]
               && negb (uouts_eqb (written (rev (d_out (lp_d l)))) (map as_read [(c, true); (c, false)]))
     | _ => false end) internal = true) by (vm_compute; reflexivity).
  intros c Hc. rewrite forallb_forall in H. specialize (H c Hc). revert H.
  destruct (simulate 5 all_ok [no_text] two 1 [reading 1 5 [key c 1; key c 0] []]) as [l| | |]; try discriminate.
  intros H. apply andb_true_iff in H as [H1 H2].
  exists l. split; [reflexivity|]. split; [now apply rd_list_eqb_ok|].
  intros X. apply uouts_eqb_iff in X. rewrite X in H2. discriminate H2.
Qed.
Definition C44_all := (C44_passthrough, C44_strokes, C44_default, C44_example, C44_internal_refuted).
Print Assumptions C44_all.
