(* C75: the daemon is the system of reference machines of SpecSystem.v: what it writes to the
   virtual keyboard and what it has the shell do is what they say. *)
From Verif Require Import Base Lib Types Keys MacroExec Kbd Str MacroParse Config Hist ExTools ParseWf WfHist Match Device Daemon SpecMods SpecLookup LookupProofs SpecDaemon DaemonProofs EntryProofs
  BoundProofs PropDaemon KeptProofs PropDefer SpecRef RefRun PropRef PropWait SpecSystem SystemProofs.
From Coq Require Import String.
Local Open Scope list_scope.
Local Open Scope nat_scope.
Local Notation length := List.length.

(* From start up on: whatever the devices deliver and whatever listens. *)
Theorem C75_written :
  forall fuel wr l,
    runs fuel wr l ->
    (forall d ev ts, In (d, ev, ts) (calls_in l) -> undisturbed ev) ->
    (forall c, In c (configs (lp_d l)) -> common c /\ (dawn c <= 1)%Z) ->
    ordinary (configs (lp_d l)) (requests None (calls_in l)) ->
    filter written (d_out (lp_d l)) = y_out (heard (configs (lp_d l)) (requests None (calls_in l))).
Proof.
  intros fuel wr l R U Cm B. destruct (runs_linked fuel wr l R) as (texts & grabs & d0 & E0 & L). pose proof (runs_ptr fuel wr l R) as [_ P].
  assert (U1 : forall d ev ts t, In (d, ev, ts, t) (lp_calls l) -> undisturbed ev).
  { intros d ev ts t Hi. apply (U d ev ts). unfold calls_in. apply in_map_iff. exists (d, ev, ts, t). split; [reflexivity|]. now apply -> in_rev. }
  pose proof (linked_origs _ _ _ _ _ L U1) as Eo. fold (configs (lp_d l)) in Eo. change (map k_orig (d_ents (lp_d l))) with (origs (lp_d l)) in *. unfold configs in *. fold (origs (lp_d l)) in *. rewrite Eo in *.
  destruct (reload_tied _ _ _ _ E0 Logic.I) as [_ T]. change (d_clock (d_init [])) with 1%Z in T.
  assert (Z0 : paper d0 = []).
  { apply reload_inv in E0 as (ents & _ & ->). unfold clear_vkbd. generalize (seq 0 256) as s. intros s.
    assert (G : forall s d, (forall c, d_ks d c = false) -> fold_left clear_key s d = d).
    { clear. induction s as [|i s IH]; intros d Hd; [reflexivity|]. cbn [fold_left]. unfold clear_key. rewrite Hd. now apply IH. }
    rewrite G by reflexivity. reflexivity. }
  rewrite Z0 in T.
  pose proof (linked_system (origs d0) (fun j c H => proj1 (Cm c (nth_error_In _ _ H))) 1 (fun j c H => proj2 (Cm c (nth_error_In _ _ H))) fuel wr d0 (lp_calls l) (lp_d l) L) as H.
  rewrite Z0 in H. specialize (H (fun d ev ts t Hi => conj (proj1 (P d ev ts t Hi)) (U1 d ev ts t Hi)) T B).
  pose proof (t_out _ _ _ _ _ _ H) as O. rewrite app_nil_r in O. exact O.
Qed.

(* After a reload: the machines of the new configurations begin anew; the device that was used
   last before does not count. *)
Theorem C75_reloaded :
  forall fuel wr l d0 ev ts t before after d1,
    runs fuel wr l ->
    lp_calls l = after ++ (d0, ev, ts, t) :: before ->
    reloading ev -> event_handler fuel wr ev ts d0 = Ok (d1, t) ->
    (forall d ev ts t, In (d, ev, ts, t) after -> undisturbed ev) ->
    (forall c, In c (configs d1) -> common c /\ (dawn c <= d_clock d1)%Z) ->
    ordinary (configs d1) (requests None (map fst (rev after))) ->
    configs (lp_d l) = configs d1
    /\ filter written (d_out (lp_d l)) = y_out (heard (configs d1) (requests None (map fst (rev after)))) ++ filter written (d_out d1).
Proof.
  intros fuel wr l d0 ev ts t before after d1 R El Hr E U Cm B. destruct (runs_linked fuel wr l R) as (texts & grabs & d00 & _ & L). pose proof (runs_ptr fuel wr l R) as [_ P].
  unfold linkedl in L. rewrite El in L, P. apply linked_split in L as (d1' & _ & E' & L). cbn [fst snd] in E'. rewrite E in E'. apply Ok_inj in E'. injection E' as <-.
  assert (T : tied (origs d1) (d_clock d1) (paper d1) None [] d1).
  { destruct (P d0 ev ts t) as [Pd _]; [apply in_or_app; right; now left|]. destruct ev as [| | | |con m x g]; try contradiction Hr. destruct Hr as (H1 & H2 & H3).
    unfold event_handler in E. cbv zeta in E. set (e0 := set_d_times ts _ d0) in E.
    assert (A0 : match d_active e0 with Some (g, _) => g < S (d_gen e0) | None => True end).
    { change (d_active e0) with (d_active d0). change (d_gen e0) with (d_gen d0). pose proof (po_active _ Pd) as Pa. destruct (d_active d0) as [[g' j]|]; [|exact Logic.I].
      destruct (Pa (g', j) eq_refl) as [X|[X _]]; cbn [fst] in X; lia. }
    clearbody e0. unfold handle_client in E. cbv zeta in E. rewrite (proj2 (N.leb_gt 4096 (i_sz m)) H2), (proj2 (N.ltb_ge 1000000 (i_timeout m)) H3), H1 in E.
    destruct (reload x g e0) as [e1| | |] eqn:Er; cbn [bind] in E; try discriminate E. apply Ok_inj in E. injection E as E _.
    destruct (reload_tied _ _ _ _ Er A0) as [Ec T]. rewrite <- E.
    match goal with |- tied _ _ _ _ _ ?y => change (origs y) with (origs e1); change (d_clock y) with (d_clock e1); change (paper y) with (paper e1) end. rewrite Ec.
    eapply tied_same; [..|exact T]; reflexivity. }
  split; [exact (linked_origs _ _ _ _ _ L U)|].
  pose proof (linked_system (origs d1) (fun j c H => proj1 (Cm c (nth_error_In _ _ H))) (d_clock d1) (fun j c H => proj2 (Cm c (nth_error_In _ _ H))) fuel wr d1 after (lp_d l) L) as H.
  specialize (H (fun d ev ts t Hi => conj (proj1 (P d ev ts t (in_or_app _ _ _ (or_introl Hi)))) (U d ev ts t Hi)) T B). exact (t_out _ _ _ _ _ _ H).
Qed.

(* Without oneshot keys the machines have none waiting. *)
Theorem C75_no_oneshots :
  forall cs evs, (forall c, In c cs -> no_oneshots c) -> (forall x, In x evs -> physical (ev_code (snd x)) \/ ev_code (snd x) = 0%N) -> ordinary cs evs.
Proof.
  intros cs evs Nc Ph. split; [exact Ph|]. intros n m Hm. apply In_nth_error in Hm as [j Hj].
  destruct (nth_error cs j) as [c|] eqn:Ec.
  - rewrite (heard_ms cs _ j c Ec) in Hj. injection Hj as <-. rewrite shotless_run by (apply Nc; now apply nth_error_In in Ec). cbn. lia.
  - exfalso. apply nth_error_None in Ec. assert (L : j < length (y_ms (heard cs (firstn n evs)))) by (apply nth_error_Some; rewrite Hj; discriminate).
    assert (X : length (y_ms (heard cs (firstn n evs))) = length cs); [|lia]. generalize (firstn n evs) as e. clear.
    intros e. induction e as [|x e IH] using rev_ind; [apply map_length|]. rewrite heard_snoc, hear_length. exact IH.
Qed.

(* ---- example: two keyboards with a file each, and a mouse without ---------------------------- *)
Lemma loop_linked fuel wr rs : forall d0 l l', loop fuel wr rs l = Ok l' -> linkedl fuel wr d0 l -> linkedl fuel wr d0 l'.
Proof.
  induction rs as [|r rs IH]; cbn [loop]; intros d0 l l' H L; [apply Ok_inj in H; now subst|].
  destruct (loop_round fuel wr r l) as [l1| | |] eqn:E; cbn [bind] in H; try discriminate H. apply (IH d0 l1 l' H). now apply (round_linked fuel wr d0 r l l1 E).
Qed.
Definition undisturbedb (ev : event) : bool :=
  match ev with EvClient _ m _ _ => match i_type m with IListen | IOther => true | _ => false end | _ => true end.
Lemma undisturbedb_ok ev : undisturbedb ev = true -> undisturbed ev.
Proof. destruct ev; cbn; auto. destruct (i_type m); auto; discriminate. Qed.
Definition okb75 (P : lstate -> bool) (l : lstate) : bool :=
  forallb (fun x => undisturbedb (snd (fst x))) (calls_in l)
  && forallb (fun x => physicalb (ev_code (snd x)) || (ev_code (snd x) =? 0)%N) (requests None (calls_in l)) && P l.
Lemma system_ex texts cs devs rs (P : lstate -> bool) :
  Forall2 (fun t c => config_parse t = Ok (Some c)) texts cs -> Forall unbound devs -> Forall (fun r => r_added r = []) rs ->
  (match simulate 50 all_ok texts devs 1 rs with Ok l => okb75 P l | _ => false end) = true ->
  exists l, runs 50 all_ok l /\ configs (lp_d l) = rev cs /\ (forall d ev ts, In (d, ev, ts) (calls_in l) -> undisturbed ev)
    /\ (forall x, In x (requests None (calls_in l)) -> physical (ev_code (snd x)) \/ ev_code (snd x) = 0%N) /\ P l = true.
Proof.
  intros F Hu Fr H. destruct (simulate 50 all_ok texts devs 1 rs) as [l| | |] eqn:E; try discriminate H.
  exists l. split; [exact (simulate_runs 50 all_ok texts devs 1 rs l Hu Fr E)|]. unfold okb75 in H. apply andb_true_iff in H as [H H3]. apply andb_true_iff in H as [H1 H2].
  assert (U : forall d ev ts, In (d, ev, ts) (calls_in l) -> undisturbed ev).
  { intros d ev ts Hi. rewrite forallb_forall in H1. apply undisturbedb_ok. exact (H1 (d, ev, ts) Hi). }
  split.
  { unfold simulate in E. destruct (start 50 all_ok texts devs (fun _ => true) 1) as [l0| | |] eqn:Es; cbn [bind] in E; try discriminate E.
    unfold start in Es. destruct (reload texts _ (d_init [])) as [d0| | |] eqn:Er; cbn [bind] in Es; try discriminate Es.
    destruct (Daemon.calls _ _ _ _ _) as [l1| | |] eqn:Ec; cbn [bind] in Es; try discriminate Es. apply Ok_inj in Es. subst l0.
    apply (calls_linked _ _ d0) in Ec; [|unfold linkedl; cbn [lp_calls lp_d]; apply ln_devs, ln_none].
    apply (loop_linked _ _ _ d0) in E; [|exact Ec]. rewrite <- (reload_origs _ _ _ _ _ Er F). apply (linked_origs _ _ _ _ _ E).
    intros d ev ts t Hi. apply (U d ev ts). unfold calls_in. apply in_map_iff. exists (d, ev, ts, t). split; [reflexivity|]. now apply -> in_rev. }
  split; [exact U|]. split; [|exact H3].
  intros x Hx. rewrite forallb_forall in H2. specialize (H2 x Hx). apply orb_true_iff in H2 as [H2|H2]; [left|right; now apply N.eqb_eq].
  destruct (physicals_ok [snd x]) with (e := snd x) as [X|X]; [cbn [forallb]; now rewrite H2|now left|exact X|]. exfalso. rewrite X in H2. discriminate H2.
Qed.
Definition first_text : str := Eval vm_compute in
  List.concat (map (fun l => bs l ++ [10%N]) ["[ids]"; "1234:5678"; "[main]"; "capslock = layer(nav)"; "[nav]"; "h = left"; "scrollup = C-k"]%string).
Definition second_text : str := Eval vm_compute in
  List.concat (map (fun l => bs l ++ [10%N]) ["[ids]"; "abcd:ef01"; "[main]"; "a = layer(shift)"; "b = command(ls)"]%string).
Definition three : list device :=
  [mkDev true false CAP_KEYBOARD false (bs "1234:5678") (mkAxes 0 0) None;
   mkDev true false CAP_KEYBOARD false (bs "abcd:ef01") (mkAxes 0 0) None;
   mkDev true false CAP_MOUSE false (bs "9999:9999") (mkAxes 0 0) None].
Definition delivers (start stop : Z) (i : nat) (l : list rd) : round :=
  mkRound start stop (fun j => if Nat.eqb i j then l else []) [] [].
(* capslock is held on the first keyboard while a, c and b are used on the second: its layer
   does not count there; h and the wheel on the first find it *)
Definition rounds75 : list round :=
  [delivers 0 10 0 [key 58 1]; delivers 10 20 1 [key 30 1; key 46 1; key 46 0; key 30 0; key 48 1; key 48 0];
   delivers 20 30 2 [key 272 1; key 272 0]; delivers 30 40 0 [key 35 1; key 35 0; REvent (mkIev 2 8 1); key 58 0]].
Definition vevb (a b : vev) : bool :=
  match a, b with
  | VKey c p, VKey c' p' => (c =? c')%N && Bool.eqb p p'
  | VCmd s, VCmd s' => if list_eq_dec N.eq_dec s s' then true else false
  | VSleep u, VSleep u' => (u =? u')%N
  | _, _ => false
  end.
Lemma vevb_ok a b : vevb a b = true -> a = b.
Proof.
  destruct a, b; cbn; try discriminate.
  - rewrite andb_true_iff, N.eqb_eq, Bool.eqb_true_iff. intros [-> ->]. reflexivity.
  - destruct (list_eq_dec N.eq_dec _ _) as [-> |]; [reflexivity|discriminate].
  - rewrite N.eqb_eq. intros ->. reflexivity.
Qed.
Fixpoint vevsb (l l' : list vev) : bool :=
  match l, l' with [], [] => true | x :: r, y :: r' => vevb x y && vevsb r r' | _, _ => false end.
Lemma vevsb_ok l : forall l', vevsb l l' = true -> l = l'.
Proof.
  induction l as [|x l IH]; intros [|y l']; cbn [vevsb]; try discriminate; [reflexivity|]. intros H. apply andb_true_iff in H as [H1 H2].
  apply vevb_ok in H1. subst. f_equal. now apply IH.
Qed.
Lemma texts75 : Forall2 (fun t c => config_parse t = Ok (Some c)) [first_text; second_text] [cfg_of first_text; cfg_of second_text].
Proof. constructor; [apply parsesb_ok; vm_compute; reflexivity|]. constructor; [apply parsesb_ok; vm_compute; reflexivity|constructor]. Qed.
Lemma common75 : forall c, In c [cfg_of second_text; cfg_of first_text] -> common c /\ (dawn c <= 1)%Z /\ no_oneshots c.
Proof.
  intros c [<-|[<-|[]]]; (split; [apply common_check; vm_compute; reflexivity|split; [vm_compute; discriminate|apply no_shot_ok; vm_compute; reflexivity]]).
Qed.
Definition pair_dec (a b : nat * N) : {a = b} + {a <> b}.
Proof. decide equality; [apply N.eq_dec|apply Nat.eq_dec]. Defined.
Definition asked75 : list (nat * N) :=
  combine [1; 0; 0; 0; 0; 0; 0; 0; 0; 0; 0; 1; 1; 1; 1; 1] [58; 30; 46; 46; 30; 48; 48; 196; 196; 196; 196; 35; 35; 149; 149; 58]%N.
Example C75_example : exists l, runs 50 all_ok l
  /\ configs (lp_d l) = [cfg_of second_text; cfg_of first_text]
  /\ (forall d ev ts, In (d, ev, ts) (calls_in l) -> undisturbed ev)
  /\ (forall c, In c (configs (lp_d l)) -> common c /\ (dawn c <= 1)%Z)
  /\ ordinary (configs (lp_d l)) (requests None (calls_in l))
  /\ map (fun x => (fst x, ev_code (snd x))) (requests None (calls_in l))
     = asked75
  /\ rev (y_out (heard (configs (lp_d l)) (requests None (calls_in l))))
     = [VKey 42 true; VKey 46 true; VKey 46 false; VKey 42 false; VCmd (bs "ls"); VKey 105 true; VKey 105 false; VKey 29 true; VKey 37 true; VKey 37 false; VKey 29 false].
Proof.
  destruct (system_ex [first_text; second_text] _ three rounds75
    (fun l => vevsb (rev (filter written (d_out (lp_d l)))) [VKey 42 true; VKey 46 true; VKey 46 false; VKey 42 false; VCmd (bs "ls"); VKey 105 true; VKey 105 false; VKey 29 true; VKey 37 true; VKey 37 false; VKey 29 false]
       && if list_eq_dec pair_dec (map (fun x => (fst x, ev_code (snd x))) (requests None (calls_in l)))
            asked75 then true else false)
    texts75) as (l & R & Ec & U & Ph & H).
  - repeat (apply Forall_cons; [reflexivity|]). apply Forall_nil.
  - no_added.
  - vm_compute. reflexivity.
  - cbn [rev app] in Ec. apply andb_true_iff in H as [H1 H2]. apply vevsb_ok in H1. destruct (list_eq_dec _ _ _) as [H3|]; [clear H2|discriminate H2].
    assert (Cm : forall c, In c (configs (lp_d l)) -> common c /\ (dawn c <= 1)%Z /\ no_oneshots c) by (rewrite Ec; exact common75).
    assert (O : ordinary (configs (lp_d l)) (requests None (calls_in l))) by (apply C75_no_oneshots; [intros c Hc; apply (Cm c Hc)|exact Ph]).
    exists l. split; [exact R|]. split; [exact Ec|]. split; [exact U|]. split; [intros c Hc; destruct (Cm c Hc) as (X & Y & _); auto|]. split; [exact O|]. split; [exact H3|].
    rewrite <- (C75_written 50 all_ok l R U); [exact H1| |exact O]. intros c Hc; destruct (Cm c Hc) as (X & Y & _); auto.
Qed.
(* the same keyboards; while capslock is held on the first, its file is replaced by an empty
   one: h is h again *)
Definition empty_text : str := Eval vm_compute in List.concat (map (fun l => bs l ++ [10%N]) ["[ids]"; "1234:5678"; "[main]"; "q = w"]%string).
Definition rounds75r : list round :=
  [delivers 0 10 0 [key 58 1]; mkRound 10 20 (fun _ => []) [(7, mkMsg IReload 0 [] 0, [empty_text], fun _ => true)] [];
   delivers 20 30 0 [key 35 1; key 35 0; key 16 1]].
Lemma cut {A} n (l : list A) x : nth_error l n = Some x -> l = firstn n l ++ x :: skipn (S n) l.
Proof.
  revert n. induction l as [|y l IH]; intros [|n] H; try discriminate H; cbn in H.
  - injection H as ->. reflexivity.
  - cbn [firstn app]. rewrite (IH n H) at 1. reflexivity.
Qed.
Definition reloadb (n : nat) (news : list str) (l : lstate) : bool :=
  match nth_error (lp_calls l) n with
  | Some (d0, EvClient _ m x _, _, _) =>
      (match i_type m with IReload => true | _ => false end) && (i_sz m <? 4096)%N && (i_timeout m <=? 1000000)%N
      && (if list_eq_dec (list_eq_dec N.eq_dec) x news then true else false) && (1 <=? d_clock d0)%Z
  | _ => false
  end
  && forallb (fun x => undisturbedb (snd (fst (fst x)))) (firstn n (lp_calls l))
  && forallb (fun x => physicalb (ev_code (snd x)) || (ev_code (snd x) =? 0)%N) (requests None (map fst (rev (firstn n (lp_calls l))))).
Lemma reload_ex texts devs rs n news cs (Q : lstate -> bool) :
  Forall2 (fun t c => config_parse t = Ok (Some c)) news cs -> (forall c, In c (rev cs) -> common c /\ (dawn c <= 1)%Z /\ no_oneshots c) ->
  Forall unbound devs -> Forall (fun r => r_added r = []) rs ->
  (match simulate 50 all_ok texts devs 1 rs with Ok l => reloadb n news l && Q l | _ => false end) = true ->
  exists l d0 ev ts t before after d1, runs 50 all_ok l
  /\ lp_calls l = after ++ (d0, ev, ts, t) :: before /\ reloading ev /\ event_handler 50 all_ok ev ts d0 = Ok (d1, t)
  /\ (forall d ev ts t, In (d, ev, ts, t) after -> undisturbed ev)
  /\ configs d1 = rev cs
  /\ (forall c, In c (configs d1) -> common c /\ (dawn c <= d_clock d1)%Z)
  /\ ordinary (configs d1) (requests None (map fst (rev after)))
  /\ after = firstn n (lp_calls l) /\ Q l = true.
Proof.
  intros F Cm Hu Fr H. destruct (simulate 50 all_ok texts devs 1 rs) as [l| | |] eqn:E; try discriminate H.
  pose proof (simulate_runs 50 all_ok texts devs 1 rs l Hu Fr E) as R. clear E. apply andb_true_iff in H as [H HQ]. unfold reloadb in H.
  apply andb_true_iff in H as [H H3]. apply andb_true_iff in H as [H H2].
  destruct (nth_error (lp_calls l) n) as [[[[d0 ev] ts] t]|] eqn:En; [|discriminate H]. destruct ev as [| | | |con m x g]; try discriminate H.
  rewrite !andb_true_iff in H. destruct H as ((((H4 & H5) & H6) & H7) & H8). apply N.ltb_lt in H5. apply N.leb_le in H6. apply Z.leb_le in H8.
  destruct (list_eq_dec (list_eq_dec N.eq_dec) x news) as [Ex|]; [subst x|discriminate H7]. assert (Hm : i_type m = IReload) by (destruct (i_type m); try discriminate H4; reflexivity).
  destruct (proj2 (runs_ptr 50 all_ok l R) d0 (EvClient con m news g) ts t (nth_error_In _ _ En)) as [_ [d1 Eh]].
  assert (Ed : configs d1 = rev cs /\ d_clock d1 = d_clock d0).
  { pose proof Eh as Eh'. unfold event_handler in Eh'. cbv zeta in Eh'. set (e0 := set_d_times ts _ d0) in Eh'. assert (Ec0 : d_clock e0 = d_clock d0) by reflexivity. clearbody e0.
    unfold handle_client in Eh'. cbv zeta in Eh'. rewrite (proj2 (N.leb_gt 4096 (i_sz m)) H5), (proj2 (N.ltb_ge 1000000 (i_timeout m)) H6), Hm in Eh'.
    destruct (reload news g e0) as [e1| | |] eqn:Er; cbn [bind] in Eh'; try discriminate Eh'. apply Ok_inj in Eh'. injection Eh' as <- _.
    split; [exact (reload_origs _ _ _ _ _ Er F)|]. change (d_clock e1 = d_clock d0). rewrite <- Ec0. apply reload_inv in Er as (ents & _ & ->).
    destruct (clear_ents (reload_base news g e0 ents)) as (_ & _ & A3 & _). exact A3. }
  destruct Ed as [Ed Ck]. exists l, d0, (EvClient con m news g), ts, t, (skipn (S n) (lp_calls l)), (firstn n (lp_calls l)), d1.
  split; [exact R|]. split; [now apply cut|]. split; [exact (conj Hm (conj H5 H6))|]. split; [exact Eh|]. split.
  { intros d ev ts0 t0 Hi. rewrite forallb_forall in H2. apply undisturbedb_ok. exact (H2 _ Hi). }
  split; [exact Ed|]. split; [intros c Hc; rewrite Ed in Hc; destruct (Cm c Hc) as (X & Y & _); split; [exact X|lia]|]. split.
  { apply C75_no_oneshots; [intros c Hc; rewrite Ed in Hc; apply (Cm c Hc)|]. intros y Hy. rewrite forallb_forall in H3. specialize (H3 y Hy).
    apply orb_true_iff in H3 as [H3|H3]; [|right; now apply N.eqb_eq]. apply (physicals_ok [snd y]); [cbn [forallb]; now rewrite H3|now left]. }
  split; [reflexivity|exact HQ].
Qed.
Example C75_reloaded_example : exists l d0 ev ts t before after d1, runs 50 all_ok l
  /\ lp_calls l = after ++ (d0, ev, ts, t) :: before /\ reloading ev /\ event_handler 50 all_ok ev ts d0 = Ok (d1, t)
  /\ (forall d ev ts t, In (d, ev, ts, t) after -> undisturbed ev)
  /\ (forall c, In c (configs d1) -> common c /\ (dawn c <= d_clock d1)%Z)
  /\ ordinary (configs d1) (requests None (map fst (rev after)))
  /\ configs d1 = [cfg_of empty_text]
  /\ rev (y_out (heard (configs d1) (requests None (map fst (rev after))))) = [VKey 35 true; VKey 35 false; VKey 17 true].
Proof.
  destruct (reload_ex [first_text; second_text] three rounds75r 3 [empty_text] [cfg_of empty_text]
    (fun l => vevsb (rev (y_out (heard [cfg_of empty_text] (requests None (map fst (rev (firstn 3 (lp_calls l)))))))) [VKey 35 true; VKey 35 false; VKey 17 true]))
    as (l & d0 & ev & ts & t & before & after & d1 & H1 & H2 & H3 & H4 & H5 & H6 & H7 & H8 & H9 & H10).
  - constructor; [apply parsesb_ok; vm_compute; reflexivity|constructor].
  - intros c [<-|[]]. split; [apply common_check; vm_compute; reflexivity|split; [vm_compute; discriminate|apply no_shot_ok; vm_compute; reflexivity]].
  - repeat (apply Forall_cons; [reflexivity|]). apply Forall_nil.
  - no_added.
  - vm_compute. reflexivity.
  - exists l, d0, ev, ts, t, before, after, d1. cbn [rev app] in H6. apply vevsb_ok in H10. rewrite <- H9, <- H6 in H10.
    refine (conj H1 (conj H2 (conj H3 (conj H4 (conj H5 (conj H7 (conj H8 (conj H6 H10)))))))).
Qed.
Definition C75_all := (C75_written, C75_reloaded, C75_no_oneshots, C75_example, C75_reloaded_example).
Print Assumptions C75_all.
