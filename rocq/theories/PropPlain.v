(* C49: plain keys come out in the order they are typed. *)
From Coq Require Import String.
From Verif Require Import Base Lib Keys Types MacroExec Kbd Str Config Steps Hist SpecTrace SpecMods SpecLookup SpecHist
  SpecPlain ModsProofs LookupProofs Engine SpecWf Wf ParseWf WfHist StepProofs OneProofs ActProofs CacheProofs ClassInv
  KeptProofs TermProofs SpecTerm PropTerm PlainProofs.
Local Open Scope list_scope.
Local Open Scope nat_scope.
Local Notation length := List.length.

(* [unscripted k evs c]: no multi-step macro of c types one of the modifiers or of the keys
   that the events evs stand for in state k *)
Definition unscripted (k : kbd) (evs : list kev) (c : config) : Prop :=
  forall x, (exists bit, is_modifier bit x)
         \/ (exists e m dl, In e evs /\ resolves k (ev_code e) (DKey x m) dl) -> macros_avoid x c.

Lemma reach_weaken (G H : config -> Prop) c k : (forall c, G c -> H c) -> reach G c k -> reach H c k.
Proof. intros X R. induction R; [apply reach_init|eapply reach_events|eapply reach_eval|eapply reach_outside]; eauto. Qed.

(* Typing on plain keys in any state at rest, whatever layers are active: the events
   are processed to the end, and the host sees what [types] says. *)
Theorem C49_typing : forall text c k evs,
  config_parse text = Ok (Some c) -> reach (unscripted k evs) c k ->
  at_rest k -> Forall (fun e => typable k (ev_code e)) evs ->
  (forall e o m dl, In e evs -> resolves k (ev_code e) (DKey o m) dl -> proper o) ->
  exists k' t, outcome k evs (Ok (k', t)) /\ types k (spare k) [] (k_out k) evs (k_out k').
Proof.
  intros text c k evs Hc Hr (Hi & Ho & Hd & Hm) F Hp.
  pose proof F as F0. rewrite Forall_forall in F.
  destruct (C03_terminates text c k evs Hc) as [r [Hr0 [f0 Hf]]]; [apply (reach_weaken _ _ _ _ (fun _ _ => Logic.I) Hr)|].
  set (struck := fun x => exists e, In e evs /\ ev_code e = x).
  assert (HJ : J k struck (spare k) [] k).
  { constructor; auto.
    - intros x Hx. eapply reach_agrees; [|exact Hr]. intros c0 Hc0. apply Hc0. destruct Hx as [[y [m [dl [[e [He <-]] Hx]]]]|Hx].
      + right. exists e, m, dl. auto.
      + left. exact Hx.
    - apply (reach_uniq _ _ _ Hr).
    - intros x. split; [intros []|]. intros [[e [He <-]] [ce [Hce Ex]]].
      destruct (F e He) as (_ & Hu & _). exact (Hu ce Hce Ex).
    - intros ce Hce [e [He Ex]]. destruct (F e He) as (_ & Hu & _). now destruct (Hu ce Hce).
    - constructor. }
  assert (L : forall f fuel held k1 t ts, J k struck (spare k) held k1 ->
     match pe_loop (process_event (S f)) fuel k1 evs t ts with
     | Ok (k', t') => types k (spare k) held (k_out k1) evs (k_out k') | NoFuel => True | _ => False end).
  { intros f fuel held k1 t ts HJ1. apply (plain_loop k struck); auto.
    - apply (proj2 (reach_times _ _ _ Hr)).
    - intros x [e [He <-]]. apply (F e He).
    - intros x [e [He <-]]. apply (F e He).
    - intros x [e [He <-]]. apply (F e He).
    - intros o [x [m [dl [[e [He <-]] Hx]]]]. exact (Hp e o m dl He Hx).
    - apply Forall_forall. intros e He. exact (ex_intro _ e (conj He eq_refl)). }
  specialize (L f0 (S f0) [] k 0%Z 0%Z HJ).
  pose proof (Hf (S f0) ltac:(lia)) as Ef. unfold kbd_process_events in Ef. rewrite Ef in L.
  destruct r as [[k' t]| | |]; try contradiction.
  exists k', t. split; [|exact L]. split; [discriminate|eauto].
Qed.

(* ---- a keyboard's own strokes --------------------------------------------------- *)
Lemma modb_iff e : modb e = true <-> modifier_event e.
Proof.
  split.
  - destruct e as [c p| | |]; try discriminate. cbn [modb]. intros H. apply existsb_exists in H as [x [Hx E]].
    apply N.eqb_eq in E. subst x. cbn [In] in Hx.
    destruct Hx as [<-|[<-|[<-|[<-|[<-|[]]]]]]; do 3 eexists; (split; [reflexivity|]); constructor.
  - intros (bit & c & p & -> & H). destruct H; reflexivity.
Qed.
Lemma letters_mods l : Forall modifier_event l -> letters l = [].
Proof.
  induction 1 as [|e l He F IH]; auto. unfold letters in *. cbn [filter]. apply modb_iff in He. now rewrite He.
Qed.
Lemma letters_app a b : letters (a ++ b) = letters a ++ letters b.
Proof. apply filter_app. Qed.
Lemma letters_proper o p l : proper o -> letters (OKey o p :: l) = OKey o p :: letters l.
Proof.
  intros (_ & _ & H). unfold letters. cbn [filter]. destruct (modb (OKey o p)) eqn:E; auto.
  apply modb_iff in E as (bit & c & p' & E & Hm). injection E as -> ->. now apply H in Hm.
Qed.

Lemma types_strokes k n f evs0 : 
  (forall e, In e evs0 -> proper (f (ev_code e)) /\ exists m dl, resolves k (ev_code e) (DKey (f (ev_code e)) m) dl) ->
  (forall e e', In e evs0 -> In e' evs0 -> f (ev_code e) = f (ev_code e') -> ev_code e = ev_code e') ->
  forall held out evs out', types k n held out evs out' ->
  incl evs evs0 -> forall held2, strokes n held2 evs -> NoDup held2 ->
  (forall x, In x held <-> In x held2) -> length held = length held2 ->
  (forall e, In e evs0 -> (host_down out (f (ev_code e)) = true <-> In (ev_code e) held)) ->
  exists new, out' = new ++ out /\ rev (letters new) = map (fun e => OKey (f (ev_code e)) (ev_pressed e)) evs.
Proof.
  intros Hf Hinj. induction 1 as [held out|held out code time rest o m dl mods out' Hn Hl Hr Hm Hw Hmin Ht IH
    |held held' out code time rest o m dl mods out' Hn Hh Hl Hr Hm Hw Hmin Ht IH|held out e rest out' Hig Ht IH];
    intros Hin held2 Hs Hnd Heq Hlen Hinv.
  - exists []. auto.
  - assert (He : In (mkKev code true time) evs0) by (apply Hin; now left).
    destruct (Hf _ He) as [Hp [m' [dl' Hr']]]. cbn [ev_code] in Hp, Hr'.
    destruct (resolves_unique _ _ _ _ _ _ Hr' Hr) as [Hd ->]. injection Hd as <- ->.
    assert (El : lifted out (f code) = []).
    { unfold lifted. destruct (host_down out (f code)) eqn:E; auto. apply (Hinv _ He) in E. contradiction. }
    rewrite El in *. cbn [app] in *. cbn [strokes ev_pressed ev_code] in Hs. destruct Hs as (Hs1 & Hs2 & Hs3).
    destruct (IH (fun e H => Hin e (or_intror H)) (code :: held2)) as [new [-> E]]; auto.
    + constructor; auto.
    + intros x. cbn [In]. rewrite Heq. reflexivity.
    + cbn [length]. lia.
    + intros e Hee. cbn [host_down]. destruct (N.eqb_spec (f code) (f (ev_code e))) as [Eq|Ne].
      * apply (Hinj _ e He Hee) in Eq. cbn [ev_code] in Eq. split; auto. intros _. now left.
      * rewrite host_app_mod; auto; [|apply (Hf _ Hee)]. rewrite (Hinv _ Hee). cbn [In].
        split; auto. intros [->|]; auto. contradiction.
    + exists (new ++ [OKey (f code) true] ++ mods). split; [now rewrite <- !app_assoc|].
      rewrite !letters_app, (letters_mods mods), rev_app_distr, E, app_nil_r by exact Hm.
      rewrite letters_proper by auto. reflexivity.
  - assert (He : In (mkKev code false time) evs0) by (apply Hin; now left).
    destruct (Hf _ He) as [Hp [m' [dl' Hr']]]. cbn [ev_code] in Hp, Hr'.
    destruct (resolves_unique _ _ _ _ _ _ Hr' Hr) as [Hd ->]. injection Hd as <- ->.
    assert (El : lifted out (f code) = [OKey (f code) false]).
    { unfold lifted. pose proof (proj2 (Hinv _ He)) as X. cbn [ev_code] in X. now rewrite X. }
    rewrite El in *. cbn [app] in *. cbn [strokes ev_pressed ev_code] in Hs. destruct Hs as (Hs1 & Hs2).
    destruct (IH (fun e H => Hin e (or_intror H)) (remove N.eq_dec code held2)) as [new [-> E]]; auto.
    + now apply nodup_remove.
    + intros x. rewrite Hh, Heq. split.
      * intros [A B]. now apply in_in_remove.
      * intros A. now apply in_remove in A.
    + pose proof (remove_one _ _ Hnd Hs1). lia.
    + intros e Hee. rewrite host_app_mod; auto; [|apply (Hf _ Hee)]. cbn [host_down].
      rewrite Hh. destruct (N.eqb_spec (f code) (f (ev_code e))) as [Eq|Ne].
      * apply (Hinj _ e He Hee) in Eq. cbn [ev_code] in Eq. split; [discriminate|]. intros [_ X]. congruence.
      * rewrite (Hinv _ Hee). split; [|intros [A _]; exact A]. intros A. split; auto. congruence.
    + exists (new ++ mods ++ [OKey (f code) false]). split; [now rewrite <- !app_assoc|].
      rewrite !letters_app, (letters_mods mods), rev_app_distr, E by exact Hm.
      rewrite letters_proper by auto. reflexivity.
  - exfalso. cbn [strokes] in Hs. destruct (ev_pressed e).
    + destruct Hs as (A & B & _). rewrite Heq, Hlen in Hig. destruct Hig; [auto|lia].
    + destruct Hs as (A & _). apply Hig, Heq, A.
Qed.

(* Strokes of keys that stand for different output keys, all of them up: apart from
   events of modifier keys the host sees the strokes one for one and in order, every
   key replaced by the one it is bound to. *)
Theorem C49_exact : forall text c k evs f,
  config_parse text = Ok (Some c) -> reach (unscripted k evs) c k ->
  at_rest k -> Forall (fun e => typable k (ev_code e)) evs ->
  (forall e, In e evs -> exists m dl, resolves k (ev_code e) (DKey (f (ev_code e)) m) dl) ->
  (forall e, In e evs -> proper (f (ev_code e)) /\ host_down (k_out k) (f (ev_code e)) = false) ->
  (forall e e', In e evs -> In e' evs -> f (ev_code e) = f (ev_code e') -> ev_code e = ev_code e') ->
  strokes (spare k) [] evs ->
  exists k' t new, outcome k evs (Ok (k', t)) /\ k_out k' = new ++ k_out k
    /\ rev (letters new) = map (fun e => OKey (f (ev_code e)) (ev_pressed e)) evs.
Proof.
  intros text c k evs f Hc Hr Hi F Hres Hp Hinj Hs.
  destruct (C49_typing text c k evs Hc Hr Hi F) as (k' & t & Ho & Ht).
  { intros e o m dl He Hx. destruct (Hres e He) as [m' [dl' Hy]].
    destruct (resolves_unique _ _ _ _ _ _ Hx Hy) as [E _]. injection E as -> _. apply (Hp e He). }
  destruct (types_strokes k (spare k) f evs) with (4 := incl_refl evs) (3 := Ht) (5 := Hs) as [new [E1 E2]]; auto.
  - intros e He. split; [apply (Hp e He)|apply (Hres e He)].
  - constructor.
  - reflexivity.
  - intros e He. rewrite (proj2 (Hp e He)). split; [discriminate|intros []].
  - exists k', t, new. auto.
Qed.

(* ---- an example ------------------------------------------------------------------- *)
(* Shift is held (by capslock) and a layer with modifier control is toggled on; a types
   C-x from that layer, b types d, c itself.  Rolling over the three keys. *)
Definition ex49_text : str := bs "[main]
capslock = layer(shift)
t = toggle(tl)
b = d
[tl:C]
a = A-x
".
Definition ex49 : config := cfg_of ex49_text.
Definition ex49_f (x : N) : N := if (x =? 30)%N then 45%N else if (x =? 48)%N then 32%N else x.
Definition ex49_evs : list kev := [D 30 100; D 48 110; U 30 120; D 46 130; U 48 140; D 30 150; U 46 160; U 30 170].
Definition at_restb (k : kbd) : bool :=
  idleb k && (k_oneshot_to k =? 0)%Z && forallb (fun i => (l_depth (k_ls k i) =? 0)%N) (seq 0 (nlayers k))
  && match k_amacro k with None => true | Some _ => false end.
Lemma at_restb_ok k : at_restb k = true -> at_rest k.
Proof.
  unfold at_restb. rewrite !andb_true_iff, forallb_forall. intros [[[H1 H2] H3] H4].
  split; [now apply idleb_ok|]. split; [lia|]. split.
  - intros i Hi. specialize (H3 i). rewrite in_seq in H3. specialize (H3 ltac:(lia)). lia.
  - destruct (k_amacro k); auto; discriminate.
Qed.
Definition properb (o : N) : bool :=
  negb (o =? K_NOOP)%N && negb (o =? K_EXTERNAL_MOUSE)%N && negb (modb (OKey o true)).
Lemma properb_ok o : properb o = true -> proper o.
Proof.
  unfold properb. rewrite !andb_true_iff, !negb_true_iff, !N.eqb_neq. intros [[H1 H2] H3].
  repeat split; auto. intros bit Hm. rewrite (proj2 (modb_iff _)) in H3; [discriminate|]. now exists bit, o, true.
Qed.
Fixpoint strokesb (n : nat) (held : list N) (evs : list kev) : bool :=
  match evs with
  | [] => true
  | e :: rest =>
      if ev_pressed e
      then negb (existsb (N.eqb (ev_code e)) held) && (length held <? n) && strokesb n (ev_code e :: held) rest
      else existsb (N.eqb (ev_code e)) held && strokesb n (remove N.eq_dec (ev_code e) held) rest
  end.
Lemma existsb_in x l : existsb (N.eqb x) l = true <-> In x l.
Proof.
  rewrite existsb_exists. split; [intros [y [H E]]; apply N.eqb_eq in E; now subst|].
  intros H. exists x. split; auto. apply N.eqb_refl.
Qed.
Lemma strokesb_ok n : forall evs held, strokesb n held evs = true -> strokes n held evs.
Proof.
  induction evs as [|e evs IH]; intros held; cbn [strokesb strokes]; auto.
  destruct (ev_pressed e); rewrite !andb_true_iff.
  - rewrite negb_true_iff. intros [[H1 H2] H3]. repeat split; auto; [|now apply Nat.ltb_lt].
    intros Hin. apply existsb_in in Hin. congruence.
  - intros [H1 H2]. split; auto. now apply existsb_in.
Qed.
Definition typeb (k : kbd) (f : N -> N) (e : kev) : bool :=
  let x := ev_code e in
  physicalb x && unheldb k x && unchordedb k x && properb (f x) && negb (host_down (k_out k) (f x))
  && match lookup_descriptor k x with (DKey o m, dl) => (o =? f x)%N && looksb k x (DKey o m) dl | _ => false end.
Definition injb (f : N -> N) (l : list N) : bool :=
  forallb (fun x => forallb (fun y => negb (f x =? f y)%N || (x =? y)%N) l) l.
(* everything C49_exact asks for, decided *)
Lemma exact_ok c k evs f :
  reach (unscripted k evs) c k ->
  at_restb k && forallb (typeb k f) evs && injb f (map ev_code evs) && strokesb (spare k) [] evs = true ->
  at_rest k /\ Forall (fun e => typable k (ev_code e)) evs
  /\ (forall e, In e evs -> exists m dl, resolves k (ev_code e) (DKey (f (ev_code e)) m) dl)
  /\ (forall e, In e evs -> proper (f (ev_code e)) /\ host_down (k_out k) (f (ev_code e)) = false)
  /\ (forall e e', In e evs -> In e' evs -> f (ev_code e) = f (ev_code e') -> ev_code e = ev_code e')
  /\ strokes (spare k) [] evs.
Proof.
  intros Hr. rewrite !andb_true_iff, forallb_forall. intros [[[H1 H2] H3] H4].
  assert (T : forall e, In e evs -> typable k (ev_code e)
     /\ (exists m dl, resolves k (ev_code e) (DKey (f (ev_code e)) m) dl)
     /\ proper (f (ev_code e)) /\ host_down (k_out k) (f (ev_code e)) = false).
  { intros e He. specialize (H2 e He). unfold typeb in H2. rewrite !andb_true_iff in H2.
    destruct H2 as [[[[[A1 A2] A3] A4] A5] A6].
    assert (X : exists m dl, resolves k (ev_code e) (DKey (f (ev_code e)) m) dl).
    { destruct (lookup_descriptor k (ev_code e)) as [d dl]. destruct d; try discriminate A6.
      apply andb_true_iff in A6 as [A6 A7]. apply N.eqb_eq in A6. rewrite A6 in A7.
      exists mods, dl. exact (looksb_ok _ _ _ _ _ _ Hr A7). }
    split; [|split; [exact X|]].
    - split; [now apply physicalb_ok|]. split; [now apply unheldb_ok|]. split; [now apply unchordedb_ok|].
      destruct X as [m [dl X]]. exists (f (ev_code e)), m, dl. exact X.
    - split; [now apply properb_ok|]. now apply negb_true_iff. }
  split; [now apply at_restb_ok|]. split; [apply Forall_forall; intros e He; apply (T e He)|].
  split; [intros e He; apply (T e He)|]. split; [intros e He; apply (T e He)|]. split; [|now apply strokesb_ok].
  intros e e' He He' E. unfold injb in H3. rewrite forallb_forall in H3.
  specialize (H3 _ (in_map ev_code _ _ He)). rewrite forallb_forall in H3.
  specialize (H3 _ (in_map ev_code _ _ He')). rewrite E, N.eqb_refl in H3. apply N.eqb_eq, H3.
Qed.
Definition outcomeb (f : nat) (k : kbd) (evs : list kev) (o : list oev) : bool :=
  match kbd_process_events f k evs with Ok (k', t') => outb o k' && (0 =? t')%Z | _ => false end.
Lemma outcomeb_ok f k evs o : outcomeb f k evs o = true ->
  exists k', outcome k evs (Ok (k', 0%Z)) /\ rev (k_out k') = o.
Proof. exact (outcome_ex f k evs o 0%Z). Qed.
Definition ex49_before : list oev := [OLayer 6 true true; OKey 29 true; OLayer 2 true true; OKey 42 true].
Definition ex49_after : list oev :=
  [OKey 56 true; OKey 29 false; OKey 45 true; OKey 56 false; OKey 29 true;
   OKey 32 true; OKey 45 false; OKey 46 true; OKey 32 false; OKey 56 true; OKey 29 false;
   OKey 45 true; OKey 46 false; OKey 56 false; OKey 29 true; OKey 45 false].
Example C49_example :
  config_parse ex49_text = Ok (Some ex49) /\
  exists k, reach (unscripted k ex49_evs) ex49 k /\ rev (k_out k) = ex49_before
    /\ at_rest k /\ Forall (fun e => typable k (ev_code e)) ex49_evs
    /\ (forall e, In e ex49_evs -> exists m dl, resolves k (ev_code e) (DKey (ex49_f (ev_code e)) m) dl)
    /\ (forall e, In e ex49_evs -> proper (ex49_f (ev_code e)) /\ host_down (k_out k) (ex49_f (ev_code e)) = false)
    /\ (forall e e', In e ex49_evs -> In e' ex49_evs -> ex49_f (ev_code e) = ex49_f (ev_code e') -> ev_code e = ev_code e')
    /\ strokes (spare k) [] ex49_evs
    /\ exists k', outcome k ex49_evs (Ok (k', 0%Z))
         /\ rev (k_out k') = ex49_before ++ ex49_after.
Proof.
  split; [apply parsesb_ok; vm_compute; reflexivity|].
  destruct (check_run_ok ex49 [[D 20 0; U 20 10; D 58 20]]
    (fun k => at_restb k && forallb (typeb k ex49_f) ex49_evs && injb ex49_f (map ev_code ex49_evs)
              && strokesb (spare k) [] ex49_evs
              && outb ex49_before k
              && outcomeb 20 k ex49_evs (ex49_before ++ ex49_after))) as [k [Hr Hk]]; [vm_compute; reflexivity|].
  apply andb_true_iff in Hk as [Hk H2]. apply andb_true_iff in Hk as [Hk H1].
  assert (Hr' : reach (unscripted k ex49_evs) ex49 k).
  { apply run_to_reach; auto. intros x _ m e Hm. vm_compute in Hm. contradiction. }
  exists k. destruct (exact_ok _ _ _ _ Hr' Hk) as (A1 & A2 & A3 & A4 & A5 & A6).
  split; [exact Hr'|]. split; [now apply outb_ok|]. split; [exact A1|]. split; [exact A2|]. split; [exact A3|].
  split; [exact A4|]. split; [exact A5|]. split; [exact A6|]. exact (outcomeb_ok 20 k ex49_evs _ H2).
Qed.
Definition C49_all := (C49_typing, C49_exact).
Print Assumptions C49_all.
