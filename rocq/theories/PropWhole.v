(* C76: C75 for configurations in which keys are decided later: the daemon is a system of the
   machines of SpecWait.v. *)
From Verif Require Import Base Lib Types Keys MacroExec Kbd Str MacroParse Config Hist ExTools ParseWf WfHist Match Device Daemon SpecMods SpecLookup LookupProofs SpecDaemon DaemonProofs EntryProofs
  BoundProofs PropDaemon KeptProofs PropDefer SpecRef RefRun PropRef SpecWait WaitProofs PropWait SpecSystem SystemProofs PropSystem SpecWhole WholeProofs.
From Coq Require Import String.
Local Open Scope list_scope.
Local Open Scope nat_scope.
Local Notation length := List.length.

Lemma reload_wtied texts grabs d d' : reload texts grabs d = Ok d' -> match d_active d with Some (g, _) => g < S (d_gen d) | None => True end ->
  (forall c, In c (origs d') -> (dawn c <= d_clock d)%Z) -> wtied (origs d') (paper d') None [] d'.
Proof.
  intros H A Dn. destruct (reload_tied _ _ _ _ H A) as [_ T].
  apply (wtied_begin (origs d') (paper d') (d_clock d) (fun j c Hj => Dn c (nth_error_In _ _ Hj)) d' T).
  clear T Dn. intros j k Hk. apply reload_inv in H as (ents & L & ->). destruct (clear_ents (reload_base texts grabs d ents)) as (A1 & _).
  rewrite A1 in Hk. change (d_ents (reload_base texts grabs d ents)) with ents in Hk.
  destruct (load_fresh _ _ _ _ L k (nth_error_In _ _ Hk)) as [[]|(text & c & _ & _ & Ec)]. eauto.
Qed.

(* From start up on. *)
Theorem C76_written :
  forall fuel wr l,
    runs fuel wr l ->
    (forall d ev ts, In (d, ev, ts) (calls_in l) -> undisturbed ev) ->
    (forall c, In c (configs (lp_d l)) -> general c /\ (dawn c <= 1)%Z) ->
    roomy (configs (lp_d l)) (requests None (calls_in l)) ->
    exists s, hears (configs (lp_d l)) (requests None (calls_in l)) s /\ filter written (d_out (lp_d l)) = z_out s.
Proof.
  intros fuel wr l R U Cm B. destruct (runs_linked fuel wr l R) as (texts & grabs & d0 & E0 & L). pose proof (runs_ptr fuel wr l R) as [_ P].
  assert (U1 : forall d ev ts t, In (d, ev, ts, t) (lp_calls l) -> undisturbed ev).
  { intros d ev ts t Hi. apply (U d ev ts). unfold calls_in. apply in_map_iff. exists (d, ev, ts, t). split; [reflexivity|]. now apply -> in_rev. }
  pose proof (linked_origs _ _ _ _ _ L U1) as Eo. fold (configs (lp_d l)) in Eo. change (map k_orig (d_ents (lp_d l))) with (origs (lp_d l)) in *. unfold configs in *. fold (origs (lp_d l)) in *. rewrite Eo in *.
  pose proof (reload_wtied _ _ _ _ E0 Logic.I) as T. change (d_clock (d_init [])) with 1%Z in T. specialize (T (fun c Hc => proj2 (Cm c Hc))).
  assert (Z0 : paper d0 = []).
  { apply reload_inv in E0 as (ents & _ & ->). unfold clear_vkbd. generalize (seq 0 256) as s. intros s.
    assert (G : forall s d, (forall c, d_ks d c = false) -> fold_left clear_key s d = d).
    { clear. induction s as [|i s IH]; intros d Hd; [reflexivity|]. cbn [fold_left]. unfold clear_key. rewrite Hd. now apply IH. }
    rewrite G by reflexivity. reflexivity. }
  pose proof (linked_wsystem (origs d0) (fun j c H => proj1 (Cm c (nth_error_In _ _ H))) (paper d0) fuel wr d0 (lp_calls l) (lp_d l) L) as H.
  specialize (H (fun d ev ts t Hi => conj (proj1 (P d ev ts t Hi)) (U1 d ev ts t Hi)) T B).
  destruct (u_sys _ _ _ _ _ H) as (s & H1 & _ & O & _). exists s. split; [exact H1|]. rewrite Z0, app_nil_r in O. exact O.
Qed.

(* After a reload. *)
Theorem C76_reloaded :
  forall fuel wr l d0 ev ts t before after d1,
    runs fuel wr l ->
    lp_calls l = after ++ (d0, ev, ts, t) :: before ->
    reloading ev -> event_handler fuel wr ev ts d0 = Ok (d1, t) ->
    (forall d ev ts t, In (d, ev, ts, t) after -> undisturbed ev) ->
    (forall c, In c (configs d1) -> general c /\ (dawn c <= d_clock d1)%Z) ->
    roomy (configs d1) (requests None (map fst (rev after))) ->
    configs (lp_d l) = configs d1
    /\ exists s, hears (configs d1) (requests None (map fst (rev after))) s
         /\ filter written (d_out (lp_d l)) = z_out s ++ filter written (d_out d1).
Proof.
  intros fuel wr l d0 ev ts t before after d1 R El Hr E U Cm B. destruct (runs_linked fuel wr l R) as (texts & grabs & d00 & _ & L). pose proof (runs_ptr fuel wr l R) as [_ P].
  unfold linkedl in L. rewrite El in L, P. apply linked_split in L as (d1' & _ & E' & L). cbn [fst snd] in E'. rewrite E in E'. apply Ok_inj in E'. injection E' as <-.
  assert (T : wtied (origs d1) (paper d1) None [] d1).
  { destruct (P d0 ev ts t) as [Pd _]; [apply in_or_app; right; now left|]. destruct ev as [| | | |con m x g]; try contradiction Hr. destruct Hr as (H1 & H2 & H3).
    unfold event_handler in E. cbv zeta in E. set (e0 := set_d_times ts _ d0) in E.
    assert (A0 : match d_active e0 with Some (g, _) => g < S (d_gen e0) | None => True end).
    { change (d_active e0) with (d_active d0). change (d_gen e0) with (d_gen d0). pose proof (po_active _ Pd) as Pa. destruct (d_active d0) as [[g' j]|]; [|exact Logic.I].
      destruct (Pa (g', j) eq_refl) as [X|[X _]]; cbn [fst] in X; lia. }
    clearbody e0. unfold handle_client in E. cbv zeta in E. rewrite (proj2 (N.leb_gt 4096 (i_sz m)) H2), (proj2 (N.ltb_ge 1000000 (i_timeout m)) H3), H1 in E.
    destruct (reload x g e0) as [e1| | |] eqn:Er; cbn [bind] in E; try discriminate E. apply Ok_inj in E. injection E as E _.
    destruct (reload_tied _ _ _ _ Er A0) as [Ec _].
    assert (Cm1 : forall c, In c (origs e1) -> (dawn c <= d_clock e0)%Z).
    { intros c Hc. rewrite <- Ec. rewrite <- E in Cm. exact (proj2 (Cm c Hc)). }
    pose proof (reload_wtied _ _ _ _ Er A0 Cm1) as T. rewrite <- E.
    match goal with |- wtied _ _ _ _ ?y => change (origs y) with (origs e1); change (paper y) with (paper e1) end.
    eapply wtied_same; [..|exact T]; reflexivity. }
  split; [exact (linked_origs _ _ _ _ _ L U)|].
  pose proof (linked_wsystem (origs d1) (fun j c H => proj1 (Cm c (nth_error_In _ _ H))) (paper d1) fuel wr d1 after (lp_d l) L) as H.
  specialize (H (fun d ev ts t Hi => conj (proj1 (P d ev ts t (in_or_app _ _ _ (or_introl Hi)))) (U d ev ts t Hi)) T B).
  destruct (u_sys _ _ _ _ _ H) as (s & H1 & _ & O & _). exists s. split; [exact H1|exact O].
Qed.

(* Without oneshot keys there is always room. *)
Theorem C76_no_oneshots :
  forall cs evs, (forall c, In c cs -> no_oneshots c) -> (forall x, In x evs -> physical (ev_code (snd x)) \/ ev_code (snd x) = 0%N) -> roomy cs evs.
Proof. intros cs evs. apply sober_roomy. Qed.

(* ---- example ---------------------------------------------------------------------------------- *)
(* a of the first keyboard waits; what is struck on the second meanwhile is written at once; x,
   tapped on the first while a is down, decides it, and 250 ms on q of the first is decided by
   the clock alone *)
Definition later_text : str := Eval vm_compute in
  List.concat (map (fun l => bs l ++ [10%N]) ["[ids]"; "1234:5678"; "[main]"; "a = overloadt2(shift, esc, 200)"; "q = timeout(w, 200, e)"]%string).
Definition rounds76 : list round :=
  [delivers 0 10 0 [key 30 1]; delivers 10 20 1 [key 46 1; key 46 0]; delivers 20 30 0 [key 45 1; key 45 0; key 30 0; key 16 1];
   mkRound 30 230 (fun _ => []) [] []; delivers 230 280 0 [key 16 0]].
Definition out76 : list vev := [VKey 46 true; VKey 46 false; VKey 42 true; VKey 45 true; VKey 45 false; VKey 42 false; VKey 18 true; VKey 18 false].
Lemma texts76 : Forall2 (fun t c => config_parse t = Ok (Some c)) [later_text; second_text] [cfg_of later_text; cfg_of second_text].
Proof. constructor; [apply parsesb_ok; vm_compute; reflexivity|]. constructor; [apply parsesb_ok; vm_compute; reflexivity|constructor]. Qed.
Lemma general76 : forall c, In c [cfg_of second_text; cfg_of later_text] -> general c /\ (dawn c <= 1)%Z /\ no_oneshots c.
Proof.
  intros c [<-|[<-|[]]]; (split; [apply general_check; vm_compute; reflexivity|split; [vm_compute; discriminate|apply no_shot_ok; vm_compute; reflexivity]]).
Qed.
Example C76_example : exists l, runs 50 all_ok l
  /\ configs (lp_d l) = [cfg_of second_text; cfg_of later_text]
  /\ (forall d ev ts, In (d, ev, ts) (calls_in l) -> undisturbed ev)
  /\ (forall c, In c (configs (lp_d l)) -> general c /\ (dawn c <= 1)%Z)
  /\ roomy (configs (lp_d l)) (requests None (calls_in l))
  /\ rev (filter written (d_out (lp_d l))) = out76.
Proof.
  destruct (system_ex [later_text; second_text] _ three rounds76 (fun l => vevsb (rev (filter written (d_out (lp_d l)))) out76) texts76) as (l & R & Ec & U & Ph & H).
  - repeat (apply Forall_cons; [reflexivity|]). apply Forall_nil.
  - no_added.
  - vm_compute. reflexivity.
  - cbn [rev app] in Ec. apply vevsb_ok in H.
    assert (Cm : forall c, In c (configs (lp_d l)) -> general c /\ (dawn c <= 1)%Z /\ no_oneshots c) by (rewrite Ec; exact general76).
    assert (O : roomy (configs (lp_d l)) (requests None (calls_in l))) by (apply C76_no_oneshots; [intros c Hc; apply (Cm c Hc)|exact Ph]).
    exists l. split; [exact R|]. split; [exact Ec|]. split; [exact U|]. split; [intros c Hc; destruct (Cm c Hc) as (X & Y & _); auto|]. split; [exact O|exact H].
Qed.
(* after a reload: the waiting key is forgotten with the keyboard it waited in *)
Definition rounds76r : list round :=
  [delivers 0 10 0 [key 30 1]; mkRound 10 20 (fun _ => []) [(7, mkMsg IReload 0 [] 0, [later_text], fun _ => true)] [];
   delivers 20 30 0 [key 45 1; key 45 0; key 30 0; key 30 1; key 30 0]].
Lemma reload_ex' texts devs rs n news cs (Q : lstate -> bool) :
  Forall2 (fun t c => config_parse t = Ok (Some c)) news cs -> (forall c, In c (rev cs) -> general c /\ (dawn c <= 1)%Z /\ no_oneshots c) ->
  Forall unbound devs -> Forall (fun r => r_added r = []) rs ->
  (match simulate 50 all_ok texts devs 1 rs with Ok l => reloadb n news l && Q l | _ => false end) = true ->
  exists l d0 ev ts t before after d1, runs 50 all_ok l
  /\ lp_calls l = after ++ (d0, ev, ts, t) :: before /\ reloading ev /\ event_handler 50 all_ok ev ts d0 = Ok (d1, t)
  /\ (forall d ev ts t, In (d, ev, ts, t) after -> undisturbed ev)
  /\ configs d1 = rev cs
  /\ (forall c, In c (configs d1) -> general c /\ (dawn c <= d_clock d1)%Z)
  /\ roomy (configs d1) (requests None (map fst (rev after)))
  /\ after = firstn n (lp_calls l) /\ Q l = true.
Proof.
  intros F Cm Hu Fr H. destruct (simulate 50 all_ok texts devs 1 rs) as [l| | |] eqn:E; try discriminate H.
  pose proof (simulate_runs 50 all_ok texts devs 1 rs l Hu Fr E) as R. clear E. apply andb_true_iff in H as [H HQ]. unfold reloadb in H.
  apply andb_true_iff in H as [H H3]. apply andb_true_iff in H as [H H2].
  destruct (nth_error (lp_calls l) n) as [[[[d0 ev] ts] t]|] eqn:En; [|discriminate H]. destruct ev as [| | | |con m x g]; try discriminate H.
  rewrite !andb_true_iff in H. destruct H as ((((H4 & H5) & H6) & H7) & H8). apply N.ltb_lt in H5. apply N.leb_le in H6. apply Z.leb_le in H8.
  destruct (list_eq_dec (list_eq_dec N.eq_dec) x news) as [Ex|]; [subst x|discriminate H7]. assert (Hm : i_type m = IReload) by (destruct (i_type m); try discriminate H4; reflexivity).
  destruct (proj2 (runs_ptr 50 all_ok l R) d0 (EvClient con m news g) ts t (nth_error_In _ _ En)) as [_ [d1 Eh]].
  assert (Ed : configs d1 = rev cs /\ d_clock d1 = d_clock d0).
  { pose proof Eh as Eh'. unfold event_handler in Eh'. cbv zeta in Eh'. set (e0 := set_d_times ts _ d0) in Eh'. assert (Ec0 : d_clock e0 = d_clock d0) by reflexivity. clearbody e0.
    unfold handle_client in Eh'. cbv zeta in Eh'. rewrite (proj2 (N.leb_gt 4096 (i_sz m)) H5), (proj2 (N.ltb_ge 1000000 (i_timeout m)) H6), Hm in Eh'.
    destruct (reload news g e0) as [e1| | |] eqn:Er; cbn [bind] in Eh'; try discriminate Eh'. apply Ok_inj in Eh'. injection Eh' as <- _.
    split; [exact (reload_origs _ _ _ _ _ Er F)|]. change (d_clock e1 = d_clock d0). rewrite <- Ec0. apply reload_inv in Er as (ents & _ & ->).
    destruct (clear_ents (reload_base news g e0 ents)) as (_ & _ & A3 & _). exact A3. }
  destruct Ed as [Ed Ck]. exists l, d0, (EvClient con m news g), ts, t, (skipn (S n) (lp_calls l)), (firstn n (lp_calls l)), d1.
  split; [exact R|]. split; [now apply cut|]. split; [exact (conj Hm (conj H5 H6))|]. split; [exact Eh|]. split.
  { intros d ev ts0 t0 Hi. rewrite forallb_forall in H2. apply undisturbedb_ok. exact (H2 _ Hi). }
  split; [exact Ed|]. split; [intros c Hc; rewrite Ed in Hc; destruct (Cm c Hc) as (X & Y & _); split; [exact X|lia]|]. split.
  { apply C76_no_oneshots; [intros c Hc; rewrite Ed in Hc; apply (Cm c Hc)|]. intros y Hy. rewrite forallb_forall in H3. specialize (H3 y Hy).
    apply orb_true_iff in H3 as [H3|H3]; [|right; now apply N.eqb_eq]. apply (physicals_ok [snd y]); [cbn [forallb]; now rewrite H3|now left]. }
  split; [reflexivity|exact HQ].
Qed.
Example C76_reloaded_example : exists l d0 ev ts t before after d1, runs 50 all_ok l
  /\ lp_calls l = after ++ (d0, ev, ts, t) :: before /\ reloading ev /\ event_handler 50 all_ok ev ts d0 = Ok (d1, t)
  /\ (forall d ev ts t, In (d, ev, ts, t) after -> undisturbed ev)
  /\ (forall c, In c (configs d1) -> general c /\ (dawn c <= d_clock d1)%Z)
  /\ roomy (configs d1) (requests None (map fst (rev after)))
  /\ configs d1 = [cfg_of later_text]
  /\ rev (filter written (d_out (lp_d l))) = [VKey 45 true; VKey 45 false; VKey 1 true; VKey 1 false].
Proof.
  destruct (reload_ex' [first_text; later_text] three rounds76r 5 [later_text] [cfg_of later_text]
    (fun l => vevsb (rev (filter written (d_out (lp_d l)))) [VKey 45 true; VKey 45 false; VKey 1 true; VKey 1 false]))
    as (l & d0 & ev & ts & t & before & after & d1 & H1 & H2 & H3 & H4 & H5 & H6 & H7 & H8 & H9 & H10).
  - constructor; [apply parsesb_ok; vm_compute; reflexivity|constructor].
  - intros c [<-|[]]. apply general76. right. now left.
  - repeat (apply Forall_cons; [reflexivity|]). apply Forall_nil.
  - no_added.
  - vm_compute. reflexivity.
  - exists l, d0, ev, ts, t, before, after, d1. cbn [rev app] in H6. apply vevsb_ok in H10.
    refine (conj H1 (conj H2 (conj H3 (conj H4 (conj H5 (conj H7 (conj H8 (conj H6 H10)))))))).
Qed.
Definition C76_all := (C76_written, C76_reloaded, C76_no_oneshots, C76_example, C76_reloaded_example).
Print Assumptions C76_all.
