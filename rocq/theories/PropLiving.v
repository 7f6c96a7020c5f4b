(* C81: the daemon is a system of the machines of SpecFull.v whatever its clients ask for. *)
From Verif Require Import SpecNotation NotationProofs MacroProofs SpecStuck MacroLife SpecClient PropClient.
From Verif Require Import Base Lib Types Keys MacroExec Kbd Str MacroParse Config Hist ExTools ParseFrame ParseWf WfHist Match Device Daemon SpecMods SpecHist SpecLookup LookupProofs SpecDaemon DaemonProofs EntryProofs
  BoundProofs PropTerm PropDaemon KeptProofs PropDefer SpecRef RefRun PropRef SpecWait WaitProofs PropWait SpecFull FullProofs PropFull SpecSystem SystemProofs PropSystem SpecLive LiveProofs PropLive SpecEntire EntireProofs SpecLiving LivingProofs.
From Coq Require Import String.
Local Open Scope list_scope.
Local Open Scope nat_scope.
Local Notation length := List.length.

(* Start with these files, then key events, time, mice, devices coming and going, and requests of
   clients to type, to bind, to load again, in any order: everything written to the virtual
   keyboard is what the system of machines writes when it is given the same in the same order, and
   the bindings in force are those of the system.  All a client has to do is to be considerate. *)
Theorem C81_written :
  forall fuel wr texts l,
    runs_from fuel wr texts l ->
    (forall c, In c (readable texts) -> unmixed c /\ (dawn c <= 1)%Z) ->
    (forall d ev ts, In (d, ev, ts) (calls_in l) -> considerate d ev) ->
    roomy (Loaded (readable texts) :: orders None (calls_in l)) ->
    exists s, lives (Loaded (readable texts) :: orders None (calls_in l)) s
      /\ filter written (d_out (lp_d l)) = z_out s
      /\ map k_cfg (d_ents (lp_d l)) = z_now s.
Proof.
  intros fuel wr texts l R St Cs B. destruct (l_sys _ _ _ (runs_living _ _ _ _ R St Cs B)) as (s & T1 & T2 & _ & _ & T5 & _).
  exists s. split; [exact T1|]. split; [exact T5|exact T2].
Qed.
(* Every run is such a run. *)
Theorem C81_runs : forall fuel wr l, runs fuel wr l <-> exists texts, runs_from fuel wr texts l.
Proof. intros. split; [apply runs_has|intros [texts H]; exact (from_runs _ _ _ _ H)]. Qed.
(* Without oneshot keys there is always room. *)
Theorem C81_no_oneshots : forall os, shotless os -> roomy os.
Proof. exact shotless_roomy. Qed.
(* What the text of a message types: every character its keys (C54), with the pause asked for ... *)
Lemma types_is m vs d : handle_client (fun _ => true) 0 m [] (fun _ => false) (d_init []) = Ok d -> filter written (d_out d) = rev vs ->
  forall vs', types m vs' <-> vs' = vs.
Proof.
  intros E1 E2 vs'. split.
  - intros (d' & X1 & X2). rewrite E1 in X1. apply Ok_inj in X1. subst d'. rewrite E2 in X2. rewrite <- (rev_involutive vs), <- (rev_involutive vs'). now rewrite X2.
  - intros ->. now exists d.
Qed.
Lemma filter_rev {A} (f : A -> bool) l : filter f (rev l) = rev (filter f l).
Proof. induction l as [|x l IH]; [reflexivity|]. cbn [rev filter]. rewrite filter_app, IH. cbn [filter]. destruct (f x); [reflexivity|apply app_nil_r]. Qed.
Lemma keys_written l : filter written (flat_map press_release l) = flat_map press_release l.
Proof. induction l as [|c l IH]; [reflexivity|]. cbn [flat_map press_release app filter written]. now rewrite IH. Qed.
Lemma typed_written t cps evss : Forall2 char_typed cps evss -> filter written (flat_map (paused t) evss) = flat_map (paused t) evss.
Proof.
  induction 1 as [|cp evs cps evss H F IH]; [reflexivity|]. cbn [flat_map]. rewrite filter_app, IH. f_equal. unfold paused. rewrite filter_app. f_equal; [|destruct (t =? 0)%N; reflexivity].
  destruct H; first [reflexivity|apply keys_written].
Qed.
Theorem C81_text :
  forall m cps evss vs,
    i_type m = IInput -> carries m (flat_map utf8 cps) -> (i_timeout m <= 1000000)%N -> Forall scalar cps -> Forall2 char_typed cps evss ->
    (types m vs <-> vs = flat_map (paused (i_timeout m)) evss).
Proof.
  intros m cps evss vs Ht Hc Hto Hs H. destruct (C54_types (fun _ => true) 0 m [] (fun _ => false) (d_init []) cps evss Ht Hc Hto Hs H) as (d & E & O).
  apply (types_is m _ d E). rewrite O. cbn [d_out set_d_out d_init]. rewrite app_nil_r, rev_app_distr. cbn [rev app filter written]. now rewrite filter_rev, (typed_written _ _ _ H).
Qed.
(* ... up to the first that cannot be typed ... *)
Theorem C81_text_stops :
  forall m cps evss bad rest vs,
    i_type m = IInput -> carries m (flat_map utf8 (cps ++ bad :: rest)) -> (i_timeout m <= 1000000)%N -> Forall scalar cps -> Forall2 char_typed cps evss ->
    scalar bad -> untypable bad -> (types m vs <-> vs = flat_map (paused (i_timeout m)) evss).
Proof.
  intros m cps evss bad rest vs Ht Hc Hto Hs H Hb Hu. destruct (C54_stops (fun _ => true) 0 m [] (fun _ => false) (d_init []) cps evss bad rest Ht Hc Hto Hs H Hb Hu) as (d & E & O).
  apply (types_is m _ d E). rewrite O. cbn [d_out set_d_out d_init]. rewrite app_nil_r, rev_app_distr. cbn [rev app filter written]. now rewrite filter_rev, (typed_written _ _ _ H).
Qed.
(* ... and a macro what its elements say (C55, C58). *)
Theorem C81_macro :
  forall m text n mac,
    i_type m = IMacro -> carries m (text ++ repeat 10%N n) -> last text 0%N <> 10%N -> i_timeout m = 0%N -> macro_parse text = Ok (Some mac) ->
    exists es, mac = flat_map encode es /\ Forall in_range es
      /\ (Forall plain_groups es -> forall vs, types m vs <-> vs = filter written (flat_map shown (flat_map SpecNotation.says es))).
Proof.
  intros m text n mac Ht Hc Hl Hto Hp. assert (Hle : (i_timeout m <= 1000000)%N) by (rewrite Hto; lia).
  destruct (C55_says (fun _ => true) 0 m [] (fun _ => false) (d_init []) text n mac Ht Hc Hl Hle Hp) as (es & d & E1 & E2 & E3 & O). exists es. split; [exact E1|]. split; [exact E2|].
  intros P vs. destruct (O P) as (o & O1 & _ & O2). rewrite (O2 Hto) in O1. apply (types_is m _ d E3). rewrite O1. cbn [d_out d_init filter written]. rewrite app_nil_r. apply filter_rev.
Qed.
Definition C81_all := (C81_written, C81_runs, C81_no_oneshots, C81_text, C81_text_stops, C81_macro).
Print Assumptions C81_all.

(* ---- example ------------------------------------------------------------------------------- *)
Definition considerateb (d : dstate) (ev : event) : bool :=
  match ev with
  | EvClient _ m texts _ =>
      match i_type m with
      | IBind => forallb (fun k => calmb k && match kbd_eval k (text_of m) with Ok (k', _) => niceb (swapping (k_orig k)) (k_cfg k') && fitsb (k_cfg k') k | _ => true end) (d_ents d)
      | IReload => forallb (fun c => niceb (swapping c) c && (dawn c <=? d_clock d)%Z) (readable texts)
      | _ => true
      end
  | _ => true
  end.
Lemma entry_inv d k : entries_ok d -> In k (d_ents d) -> inv (k_cfg k) /\ inv (k_orig k).
Proof.
  intros [_ F] Hk. rewrite Forall_forall in F. destruct (F k Hk) as [_ (text & c & Hp & Hr)]. exact (reach_inv_cfg _ _ _ (config_parse_inv _ _ Hp) Hr).
Qed.
Lemma eval_inv k exp k' ok : inv (k_cfg k) -> inv (k_orig k) -> kbd_eval k exp = Ok (k', ok) -> inv (k_cfg k').
Proof.
  intros I0 I1 H. unfold kbd_eval in H. destruct (str_eqb exp (bs "reset")).
  - apply Ok_inj in H. injection H as <- _. exact I1.
  - destruct (config_add_entry (k_cfg k) exp) as [[c o]| | |] eqn:E; cbn [bind] in H; try discriminate H. apply Ok_inj in H. injection H as <- _. exact (config_add_entry_ok _ _ _ _ I0 E).
Qed.
Lemma considerateb_ok d ev : entries_ok d -> considerateb d ev = true -> considerate d ev.
Proof.
  intros En. destruct ev as [| | | |con m texts grabs]; try (intros; exact Logic.I). cbn [considerateb considerate]. intros H. destruct (taken m); [|exact Logic.I].
  destruct (i_type m); try exact Logic.I; rewrite forallb_forall in H.
  - intros k k' ok Hk E. specialize (H k Hk). apply andb_true_iff in H as [H1 H2]. rewrite E in H2. apply andb_true_iff in H2 as [H2 H3].
    destruct (entry_inv d k En Hk) as [I1 I2]. destruct (niceb_ok _ _ (eval_inv _ _ _ _ I1 I2 E) H2) as (N1 & N2 & _).
    split; [exact (calmb_ok _ H1)|]. split; [exact N1|]. split; [exact N2|]. intros _. exact (fitsb_ok _ _ H3).
  - intros c Hc. specialize (H c Hc). apply andb_true_iff in H as [H1 H2]. split; [|now apply Z.leb_le]. exact (proj1 (niceb_ok _ _ (readable_inv _ _ Hc) H1)).
Qed.
Fixpoint shotlessb (x : list config * list config) (os : list order) : bool :=
  match os with
  | [] => true
  | (Struck _ _ | Typed _) :: r => shotlessb x r
  | o :: r => forallb (fun c => niceb (swapping c) c) (fst (in_force x o)) && shotlessb (in_force x o) r
  end.
Definition sound_loads (os : list order) : Prop := forall cs, In (Loaded cs) os -> forall c, In c cs -> inv c.
Lemma bound_inv exp c0 c : inv c0 -> inv c -> inv (bound_to exp c0 c).
Proof.
  intros I0 I1. unfold bound_to. destruct (str_eqb _ _); [exact I0|]. destruct (config_add_entry c exp) as [[c' o]| | |] eqn:E; try exact I1. exact (config_add_entry_ok _ _ _ _ I1 E).
Qed.
Lemma force_inv o x : (forall cs, o = Loaded cs -> forall c, In c cs -> inv c) -> (forall c, In c (fst x) -> inv c) -> (forall c, In c (snd x) -> inv c) ->
  (forall c, In c (fst (in_force x o)) -> inv c) /\ (forall c, In c (snd (in_force x o)) -> inv c).
Proof.
  intros Hl H1 H2. destruct o as [j e|m|exp|cs]; cbn [in_force fst snd]; auto.
  - split; [|exact H2]. intros c Hc. apply in_map_iff in Hc as ([c0 c1] & <- & Hc). cbn [fst snd]. apply bound_inv; [apply H2; exact (in_combine_l _ _ _ _ Hc)|apply H1; exact (in_combine_r _ _ _ _ Hc)].
  - split; apply (Hl cs eq_refl).
Qed.
Lemma shotlessb_ok os : forall x, sound_loads os -> (forall c, In c (fst x) -> inv c) -> (forall c, In c (snd x) -> inv c) -> (forall c, In c (fst x) -> shot_free c) ->
  shotlessb x os = true -> forall a b, a ++ b = os -> forall c, In c (fst (fold_left in_force a x)) -> shot_free c.
Proof.
  induction os as [|o os IH]; intros x Hl H1 H2 H3 H a b E.
  { apply app_eq_nil in E as [-> _]. exact H3. }
  destruct a as [|o' a]; [exact H3|]. injection E as -> E. cbn [fold_left].
  destruct (force_inv o x) as [F1 F2]; [intros cs Ho; subst o; exact (Hl cs (or_introl eq_refl))|exact H1|exact H2|].
  assert (L : sound_loads os) by (intros cs Hc; exact (Hl cs (or_intror Hc))).
  assert (G : (forall c, In c (fst (in_force x o)) -> shot_free c) /\ shotlessb (in_force x o) os = true).
  { destruct o as [j e|m|exp|cs]; cbn [shotlessb] in H; try (split; [exact H3|exact H]).
    all: apply andb_true_iff in H as [HA HB]; split; [|exact HB]; intros c Hc; rewrite forallb_forall in HA; exact (proj2 (proj2 (niceb_ok _ _ (F1 c Hc) (HA c Hc)))). }
  destruct G as [G1 G2]. exact (IH _ L F1 F2 G1 G2 a b E).
Qed.
Lemma orders_loads calls : forall a, sound_loads (orders a calls).
Proof.
  induction calls as [|[[d ev] ts] calls IH]; intros a cs H; [destruct H|]. cbn [orders] in H. apply in_app_or in H as [H|H]; [|exact (IH _ _ H)].
  destruct ev as [|i de|i g|i|con m texts g]; unfold ordered in H; try (apply in_map_iff in H as (x & E & _); discriminate E).
  destruct (taken m); [|destruct H]. destruct (i_type m); try (destruct H as [H|[]]; discriminate H); try destruct H as [H|[]]; try contradiction. injection H as <-. exact (readable_inv texts).
Qed.
Lemma loop_from fuel wr texts rs : forall l l', runs_from fuel wr texts l -> Forall (fun r => r_added r = []) rs -> loop fuel wr rs l = Ok l' -> runs_from fuel wr texts l'.
Proof.
  induction rs as [|r rs IH]; cbn [loop]; intros l l' R F H; [apply Ok_inj in H; now subst|].
  destruct (loop_round fuel wr r l) as [l1| | |] eqn:E; cbn [bind] in H; try discriminate H.
  apply (IH l1 l'); [|exact (Forall_inv_tail F)|exact H]. apply (rf_round fuel wr texts r l l1 R); [|exact E]. rewrite (Forall_inv F). constructor.
Qed.
Lemma living_ex texts devs rs (P : lstate -> bool) : Forall unbound devs -> Forall (fun r => r_added r = []) rs ->
  forallb (fun c => niceb (swapping c) c && (dawn c <=? 1)%Z) (readable texts) = true ->
  (match simulate 50 all_ok texts devs 1 rs with
   | Ok l => forallb (fun x => considerateb (fst (fst x)) (snd (fst x))) (calls_in l) && shotlessb ([], []) (Loaded (readable texts) :: orders None (calls_in l)) && P l
   | _ => false end) = true ->
  exists l, runs_from 50 all_ok texts l
    /\ (forall c, In c (readable texts) -> unmixed c /\ (dawn c <= 1)%Z)
    /\ (forall d ev ts, In (d, ev, ts) (calls_in l) -> considerate d ev)
    /\ roomy (Loaded (readable texts) :: orders None (calls_in l)) /\ P l = true.
Proof.
  intros Hu Fr St H. destruct (simulate 50 all_ok texts devs 1 rs) as [l| | |] eqn:E; try discriminate H. apply andb_true_iff in H as [H H3]. apply andb_true_iff in H as [H1 H2].
  assert (R : runs_from 50 all_ok texts l).
  { unfold simulate in E. destruct (Daemon.start 50 all_ok texts devs (fun _ => true) 1) as [l0| | |] eqn:Es; cbn [bind] in E; try discriminate E.
    eapply loop_from; [|exact Fr|exact E]. eapply rf_start; [exact Hu|exact Es]. }
  exists l. split; [exact R|]. split.
  { intros c Hc. rewrite forallb_forall in St. specialize (St c Hc). apply andb_true_iff in St as [S1 S2]. split; [|now apply Z.leb_le]. exact (proj1 (niceb_ok _ _ (readable_inv _ _ Hc) S1)). }
  split.
  { intros d ev ts Hi. rewrite forallb_forall in H1. apply considerateb_ok; [|exact (H1 _ Hi)]. unfold calls_in in Hi. apply in_map_iff in Hi as ([[[d' ev'] ts'] t] & E' & Hi). cbn [fst] in E'. injection E' as -> -> ->.
    apply in_rev in Hi. exact (proj1 (proj2 (runs_entries _ _ _ (from_runs _ _ _ _ R)) d ev ts t Hi)). }
  split; [|exact H3]. apply C81_no_oneshots, shotless_check. refine (shotlessb_ok _ ([], []) _ _ _ _ H2); [|intros c []..].
  intros cs [Hc|Hc]; [injection Hc as <-; exact (readable_inv texts)|exact (orders_loads _ _ cs Hc)].
Qed.
Definition text81 : str := Eval vm_compute in
  List.concat (map (fun l => bs l ++ [10%N]) ["[ids]"; "*"; "[main]"; "a = layer(nav)"; "[nav]"; "j = down"]%string).
Definition text81n : str := Eval vm_compute in
  List.concat (map (fun l => bs l ++ [10%N]) ["[ids]"; "*"; "[main]"; "a = overload(shift, esc)"; "j+k = tab"]%string).
Definition asks (start stop : Z) (t : itype) (s : str) (texts : list str) : round :=
  mkRound start stop (fun _ => []) [(7, mkMsg t 0 (s ++ [0%N]) (N.of_nat (length s)), texts, fun _ => true)] [].
(* j is down in the layer nav while it gets a new binding; text and a macro are typed; the files are
   loaded again, whereupon the x that is down is released; then the new file counts *)
Definition rounds81 : list round :=
  [delivers 0 10 0 [key 30 1; key 36 1]; asks 10 20 IBind (bs "nav.j = x") [];
   delivers 20 30 0 [key 36 0; key 36 1]; asks 30 40 IInput (bs "hi") []; asks 40 50 IMacro (bs "C-t") [];
   asks 50 60 IReload [] [text81n];
   delivers 60 70 0 [key 36 0; key 30 0; key 30 1; key 48 1; key 48 0; key 30 0; key 36 1; key 37 1; key 37 0; key 36 0]].
Definition out81 : list vev :=
  [VKey 108 true; VKey 108 false; VKey 45 true; VKey 35 true; VKey 35 false; VKey 23 true; VKey 23 false;
   VKey 29 true; VKey 20 true; VKey 20 false; VKey 29 false; VKey 45 false;
   VKey 42 true; VKey 48 true; VKey 48 false; VKey 42 false; VKey 15 true; VKey 15 false].
Example C81_text_example : types (mkMsg IInput 0 (bs "hi" ++ repeat 0%N 4094) 2) [VKey 35 true; VKey 35 false; VKey 23 true; VKey 23 false].
Proof. eexists. split; [vm_compute; reflexivity|vm_compute; reflexivity]. Qed.
Example C81_example : exists l, runs_from 50 all_ok [text81] l
  /\ (forall c, In c (readable [text81]) -> unmixed c /\ (dawn c <= 1)%Z)
  /\ (forall d ev ts, In (d, ev, ts) (calls_in l) -> considerate d ev)
  /\ roomy (Loaded (readable [text81]) :: orders None (calls_in l))
  /\ rev (filter written (d_out (lp_d l))) = out81.
Proof.
  destruct (living_ex [text81] two rounds81 (fun l => vevsb (rev (filter written (d_out (lp_d l)))) out81)) as (l & R & A & B & X & H).
  - exact two_unbound.
  - no_added.
  - vm_compute. reflexivity.
  - vm_compute. reflexivity.
  - apply vevsb_ok in H. exists l. auto.
Qed.
