(* C82: what a client prints and returns, and what `keyd listen` prints. *)
From Coq Require Import String.
From Verif Require Import Base Lib Types Keys Kbd Str Config Match Outside Hist SpecHist SpecMods WfHist Device Daemon SpecDaemon DaemonProofs EntryProofs ListenProofs PropDaemon PropListen
  ParseFrame SpecNotation SpecClient PropClient Client SpecCli PropCli Answer SpecAnswer.
From Coq Require Import List.
Import ListNotations.
Local Open Scope N_scope.
Local Open Scope list_scope.
Local Notation length := List.length.
Local Opaque MAX_IPC MSG_SIZE.

Lemma msg_size : MSG_SIZE = (8 + MAX_IPC + 8)%nat. Proof. vm_compute. reflexivity. Qed.
Definition answer_bytes (a : answer) : list N := if good_answer a then success_bytes else fail_bytes (wording a).
Lemma fail_shape text : N.of_nat (length text) < 2048 ->
  fail_bytes text = le 4 1 ++ le 4 0 ++ (text ++ repeat 0 (MAX_IPC - length text)) ++ le 8 (N.of_nat (length text)).
Proof.
  intros H. pose proof max_ipc. unfold fail_bytes. rewrite firstn_all2 by lia. reflexivity.
Qed.
(* an answer seen as bytes: size, type, text, length *)
Lemma answer_shape a : worded a ->
  exists pad, answer_bytes a = le 4 (if good_answer a then 0 else 1) ++ le 4 0 ++ (wording a ++ pad) ++ le 8 (N.of_nat (length (wording a)))
    /\ length (wording a ++ pad) = MAX_IPC.
Proof.
  pose proof max_ipc. destruct a as [|text]; unfold answer_bytes; cbn [good_answer wording].
  - intros _. exists (repeat 0 MAX_IPC). split; [reflexivity|apply repeat_length].
  - intros [H1 _]. exists (repeat 0 (MAX_IPC - length text)). split; [now apply fail_shape|].
    rewrite app_length, repeat_length. lia.
Qed.
Lemma answer_parts a : worded a ->
  length (answer_bytes a) = MSG_SIZE /\
  unle (skipn (8 + MAX_IPC) (answer_bytes a)) = N.of_nat (length (wording a)) /\
  (unle (firstn 4 (answer_bytes a)) =? 1) = negb (good_answer a) /\
  firstn (length (wording a)) (skipn 8 (answer_bytes a)) = wording a.
Proof.
  intros W. destruct (answer_shape a W) as (pad & -> & L). repeat split.
  - rewrite !app_length, !le_length. rewrite app_length in L. rewrite msg_size. lia.
  - rewrite !app_assoc, <- (app_assoc _ (wording a) pad). rewrite skipn_exact by (rewrite app_length, L, app_length, !le_length; reflexivity).
    apply unle_le. destruct a as [|text]; [vm_compute; reflexivity|]. destruct W as [W _]. cbn [wording].
    change (256 ^ N.of_nat 8) with 18446744073709551616. lia.
  - rewrite firstn_exact by apply le_length. destruct (good_answer a); vm_compute; reflexivity.
  - rewrite app_assoc, skipn_exact by (rewrite app_length, !le_length; reflexivity).
    rewrite <- app_assoc. now apply firstn_exact.
Qed.
Lemma heard x a : worded a -> hears x a -> xread (t_recv x) MSG_SIZE [] = IoDone (answer_bytes a).
Proof.
  intros W (ws & sent & cs & later & E & P & ->). unfold send_answer in E. apply C56_write in E. fold (answer_bytes a) in E. subst sent.
  destruct (answer_parts a W) as [<- _]. now apply C56_read.
Qed.
Lemma shown_text a : shown a = match wording a with [] => [] | _ => wording a ++ [10] end.
Proof. destruct a as [|[|b r]]; reflexivity. Qed.

Lemma xwrite_ub : forall rs buf acc, xwrite rs buf acc <> IoUB.
Proof. induction rs as [|[n|] rs IH]; intros [|b l] acc; cbn [xwrite]; try discriminate. apply IH. Qed.

(* ---- one request ------------------------------------------------------------------------ *)
(* Whatever the system does with the bytes in both directions, a client that comes to an
   end after an answer has sent its request, has printed the text of the answer and knows
   whether it was a failure; it never looks outside the answer. *)
Theorem C82_answer : forall m x a r, worded a -> hears x a ->
  exchange m x <> IoUB /\
  (exchange m x = IoDone r -> r = (msg_bytes m, shown a, negb (good_answer a))).
Proof.
  intros m x a r W H. unfold exchange. rewrite (heard x a W H). destruct (answer_parts a W) as (_ & P2 & P3 & P4).
  destruct (xwrite (t_send x) (msg_bytes m) []) as [s| | |] eqn:E1; cbn [io_bind];
    [|split; [discriminate|intros Y; discriminate Y]| |split; [discriminate|intros Y; discriminate Y]].
  2:{ now elim (xwrite_ub _ _ _ E1). }
  apply C56_write in E1. subst s. cbv zeta. rewrite P2, P3, shown_text.
  destruct (N.eqb_spec (N.of_nat (length (wording a))) 0) as [Z0|Z0].
  - split; [discriminate|]. destruct (wording a); [|cbn [length] in Z0; lia]. intros Y. injection Y as <-. reflexivity.
  - pose proof max_ipc. pose proof msg_size.
    destruct (N.ltb_spec (N.of_nat (MSG_SIZE - 8)) (N.of_nat (length (wording a)))) as [B|B].
    { exfalso. destruct a as [|text]; [cbn [wording length] in Z0; lia|]. destruct W as [W _]. cbn [wording] in B. lia. }
    rewrite Nat2N.id, P4. destruct (wording a) as [|b t] eqn:Ew; [cbn [length] in Z0; lia|].
    destruct (xwrite (t_text x) (b :: t) []) as [p| | |] eqn:E2; cbn [io_bind];
      try (split; [discriminate|intros Y; discriminate Y]); [|now elim (xwrite_ub _ _ _ E2)].
    apply C56_write in E2. subst p.
    destruct (xwrite (t_line x) [10] []) as [q| | |] eqn:E3; cbn [io_bind];
      try (split; [discriminate|intros Y; discriminate Y]); [|now elim (xwrite_ub _ _ _ E3)].
    apply C56_write in E3. subst q. split; [discriminate|]. intros Y. injection Y as <-. reflexivity.
Qed.
(* It does come to an end if the system takes what it writes. *)
Theorem C82_ends : forall m x a, worded a -> hears x a -> obliging x m a ->
  exchange m x = IoDone (msg_bytes m, shown a, negb (good_answer a)).
Proof.
  intros m x a W H ((n1 & E1 & T1) & (n2 & E2 & T2) & (n3 & E3 & T3)). unfold exchange. rewrite (heard x a W H), E1, E2, E3.
  rewrite (C56_written n1) by exact T1. cbn [io_bind]. cbv zeta. destruct (answer_parts a W) as (_ & P2 & P3 & P4). rewrite P2, P3, shown_text.
  destruct (N.eqb_spec (N.of_nat (length (wording a))) 0) as [Z0|Z0].
  - destruct (wording a); [reflexivity|cbn [length] in Z0; lia].
  - pose proof max_ipc. pose proof msg_size.
    destruct (N.ltb_spec (N.of_nat (MSG_SIZE - 8)) (N.of_nat (length (wording a)))) as [B|B].
    { exfalso. destruct a as [|text]; [cbn [wording length] in Z0; lia|]. destruct W as [W _]. cbn [wording] in B. lia. }
    rewrite Nat2N.id, P4, (C56_written n2) by exact T2. cbn [io_bind]. rewrite (C56_written n3) by exact T3. cbn [io_bind].
    destruct (wording a); [cbn [length] in Z0; lia|reflexivity].
Qed.

(* ---- the commands ----------------------------------------------------------------------- *)
Lemma fits_message junk t data to m : length junk = MAX_IPC -> to < 4294967296 -> ipc_message junk t data to = IoDone m -> fits m.
Proof.
  intros Hj Ht H. unfold ipc_message in H. destruct (Nat.leb_spec (length data) MAX_IPC); [|discriminate H].
  injection H as <-. pose proof max_ipc. unfold fits. cbn [i_timeout i_data i_sz]. rewrite app_length, skipn_length. lia.
Qed.
Lemma message_type junk t data to m : ipc_message junk t data to = IoDone m -> i_type m = t /\ i_timeout m = to /\ i_sz m = N.of_nat (length data).
Proof.
  intros H. unfold ipc_message in H. destruct (Nat.leb (length data) MAX_IPC); [|discriminate H]. injection H as <-. auto.
Qed.
Lemma text_message_fits junk t args stdin m : length junk = MAX_IPC -> text_message junk t args stdin = IoDone m -> fits m /\ i_type m = t.
Proof.
  intros Hj H. unfold text_message in H.
  assert (G : forall to args, to < 4294967296 -> io_bind (read_input args stdin) (fun text => ipc_message junk t text to) = IoDone m -> fits m /\ i_type m = t).
  { clear H. intros to ar Ht H. destruct (read_input ar stdin) as [s| | |]; cbn [io_bind] in H; try discriminate H.
    split; [now apply (fits_message _ _ _ _ _ Hj Ht H)|]. now destruct (message_type _ _ _ _ _ H). }
  destruct args as [|o [|n r]]; try (now apply (G 0 _) in H; [|lia]).
  destruct (str_eqb o (bs "-t")); [|now apply (G 0 _) in H; [|lia]].
  apply (G _ _) in H; [exact H|]. pose proof (Z.mod_pos_bound (atoi n) 4294967296). lia.
Qed.
(* `keyd input` and `keyd do`: the daemon answers what it received, and the client prints
   the text of this answer and exits with 0 if it was success, with 1 otherwise. *)
Theorem C82_text : forall junk t args stdin m wr con texts grabs d d', length junk = MAX_IPC -> t = IInput \/ t = IMacro ->
  text_message junk t args stdin = IoDone m -> handle_client wr con (msg_of (msg_bytes m)) texts grabs d = Ok d' ->
  exists ok rest, d_out d' = VReply con ok :: rest /\
  forall a x s p z, worded a -> good_answer a = ok -> hears x a -> text_command junk t args stdin x = IoDone (s, p, z) ->
    s = msg_bytes m /\ p = shown a /\ exit_code z = (if ok then 0 else 1)%Z.
Proof.
  intros junk t args stdin m wr con texts grabs d d' Hj Ht Em H.
  assert (Q : exists ok rest, d_out d' = VReply con ok :: rest).
  { destruct (text_message_fits _ _ _ _ _ Hj Em) as [Hf Et]. destruct (C56_bytes m Hf) as [_ E]. rewrite E in H. unfold handle_client in H.
    destruct (4096 <=? i_sz m). { apply Ok_inj in H. subst. cbn [vemit d_out set_d_out]. eauto. }
    cbv zeta in H. destruct (1000000 <? i_timeout m). { apply Ok_inj in H. subst. cbn [vemit d_out set_d_out]. eauto. }
    rewrite Et in H. destruct Ht as [-> | ->]; cbv iota in H.
    - match type of H with bind ?e _ = _ => destruct e as [[d1 ok]| | |] end; cbn [bind] in H; try discriminate H.
      apply Ok_inj in H. subst. cbn [vemit d_out set_d_out]. eauto.
    - match type of H with bind ?e _ = _ => destruct e as [[mac|]| | |] end; cbn [bind] in H; try discriminate H;
        apply Ok_inj in H; subst; cbn [vemit d_out set_d_out]; eauto. }
  destruct Q as (ok & rest & Q). exists ok, rest. split; [exact Q|]. intros a x s p z W Ha Hx R.
  unfold text_command in R. rewrite Em in R. cbn [io_bind] in R. destruct (exchange m x) as [r| | |] eqn:E; cbn [io_bind] in R; try discriminate R.
  apply (C82_answer m x a r W Hx) in E. subst r. cbn [io_bind] in R. injection R as <- <- <-. rewrite Ha. split; [reflexivity|]. split; [reflexivity|].
  destruct ok; vm_compute; reflexivity.
Qed.
(* `keyd reload`: the daemon says success when the reload is over; nothing is printed, and
   the exit status is 0. *)
Theorem C82_reload : forall junk m wr con texts grabs d d', length junk = MAX_IPC ->
  ipc_message junk IReload [] 0 = IoDone m -> handle_client wr con (msg_of (msg_bytes m)) texts grabs d = Ok d' ->
  exists d1, reload texts grabs d = Ok d1 /\ d_out d' = VReply con true :: d_out d1 /\
  forall x s p z, hears x Done -> reload_command junk x = IoDone (s, p, z) -> s = msg_bytes m /\ p = [] /\ exit_code z = 0%Z.
Proof.
  intros junk m wr con texts grabs d d' Hj Em H.
  assert (Hf : fits m) by (eapply fits_message; [exact Hj| |exact Em]; lia).
  destruct (message_type _ _ _ _ _ Em) as (E1 & E2 & E3). destruct (C56_bytes m Hf) as [_ E]. rewrite E in H. unfold handle_client in H.
  rewrite E3, E2, E1 in H. change (4096 <=? N.of_nat (length (@nil N))) with false in H. cbv iota zeta in H. change (1000000 <? 0) with false in H. cbv iota in H.
  destruct (reload texts grabs d) as [d1| | |]; cbn [bind] in H; try discriminate H. apply Ok_inj in H. exists d1. split; [reflexivity|].
  subst d'. split; [reflexivity|]. intros x s p z Hx R. unfold reload_command in R. rewrite Em in R. cbn [io_bind] in R.
  destruct (exchange m x) as [r| | |] eqn:Ex; cbn [io_bind] in R; try discriminate R.
  apply (C82_answer m x Done r Logic.I Hx) in Ex. subst r. cbn [io_bind] in R. injection R as <- <- <-. repeat split.
Qed.
(* `keyd bind`: the texts of the failures line by line, then Success if there were none;
   the exit status is 0 or 255. *)
Theorem C82_bind : forall junk args xs answers ss p z, Forall worded answers -> Forall2 hears xs answers -> length args = length answers ->
  bind_command junk args xs = IoDone (ss, p, z) ->
  (exists ms, bind_messages junk args = (ms, true) /\ ss = map msg_bytes ms) /\
  p = flat_map shown answers ++ (if forallb good_answer answers then bs "Success" ++ [10] else []) /\
  exit_code z = (if forallb good_answer answers then 0 else 255)%Z.
Proof.
  intros junk args xs answers ss p z W F L H.
  assert (G : forall args xs answers ret ss p z, Forall worded answers -> Forall2 hears xs answers -> length args = length answers ->
    bind_loop junk args xs ret = IoDone (ss, p, z) ->
    (exists ms, bind_messages junk args = (ms, true) /\ ss = map msg_bytes ms) /\ p = flat_map shown answers /\
    z = (if forallb good_answer answers then ret else -1)%Z).
  { clear. induction args as [|a r IH]; intros xs answers ret ss p z W F L H; cbn [bind_loop] in H.
    - destruct answers; [|discriminate L]. injection H as <- <- <-. repeat split. exists []. auto.
    - destruct F as [|x an xs answers Fx F]; [discriminate L|]. apply Forall_cons_iff in W as [Wa W].
      destruct (ipc_message junk IBind a 0) as [m| | |] eqn:Em; cbn [io_bind] in H; try discriminate H.
      destruct (exchange m x) as [q| | |] eqn:Ex; cbn [io_bind] in H; try discriminate H.
      apply (C82_answer m x an q Wa Fx) in Ex. subst q. cbn [io_bind] in H.
      match type of H with io_bind ?e _ = _ => destruct e as [[[ss1 ps1] z1]| | |] eqn:El end; cbn [io_bind] in H; try discriminate H.
      injection H as <- <- <-. injection L as L. destruct (IH _ _ _ _ _ _ W F L El) as ((ms & B & ->) & -> & ->).
      split; [|split].
      + exists (m :: ms). cbn [bind_messages]. rewrite Em, B. auto.
      + reflexivity.
      + cbn [forallb]. destruct (good_answer an); cbn [negb andb]; [reflexivity|]. now destruct (forallb good_answer answers). }
  unfold bind_command in H. destruct (bind_loop junk args xs 0) as [[[ss1 ps1] z1]| | |] eqn:El; cbn [io_bind] in H; try discriminate H.
  injection H as <- <- <-. destruct (G _ _ _ _ _ _ _ W F L El) as (A & -> & ->). split; [exact A|].
  destruct (forallb good_answer answers); split; reflexivity.
Qed.
(* A daemon that ends before it has answered leaves the client reading for ever: the end
   of the stream is not noticed. *)
Theorem C82_silence_refuted : exists m ws, fits m /\ forall n, exchange m (mkTalk ws (repeat (Some []) n) [] []) = IoMore.
Proof.
  exists listen_message, [Some MSG_SIZE]. split; [split; [vm_compute; reflexivity|split; [apply repeat_length|vm_compute; reflexivity]]|].
  intros n. unfold exchange. cbn [t_send t_recv]. assert (Hf : fits listen_message) by (split; [vm_compute; reflexivity|split; [apply repeat_length|vm_compute; reflexivity]]).
  destruct (C56_bytes listen_message Hf) as [L _]. rewrite (C56_written [MSG_SIZE]) by (unfold takes_all; cbn [fold_right]; lia). cbn [io_bind].
  assert (G : forall n k acc, xread (repeat (Some []) n) (S k) acc = IoMore).
  { clear. induction n as [|m IH]; intros k acc; [reflexivity|]. cbn [repeat xread length]. rewrite Nat.sub_0_r. apply IH. }
  rewrite msg_size, Nat.add_comm. cbn [Nat.add]. rewrite G. reflexivity.
Qed.
(* A client that hangs up before its answer is written ends the daemon: SIGPIPE is ignored
   (keyd.c:250), so the write fails, and xwrite exits. *)
Theorem C82_hangup_refuted : exists ws, forall ok text, send_answer ws ok text = IoExit.
Proof. exists [None]. intros [|] text; [reflexivity|]. unfold send_answer, fail_bytes. reflexivity. Qed.
(* While no configuration is loaded every `keyd bind` fails, also that of a binding every
   configuration accepts; the text is whatever errstr was left with. *)
Theorem C82_unloaded_refuted : exists m, (exists text, carries m text /\ text = bs "a = b") /\ i_type m = IBind /\
  forall wr con texts grabs d, d_ents d = [] -> exists d', handle_client wr con m texts grabs d = Ok d' /\ d_out d' = VReply con false :: d_out d.
Proof.
  assert (Hj : length (repeat 0 MAX_IPC) = MAX_IPC) by apply repeat_length.
  destruct (message_made (repeat 0 MAX_IPC) IBind (bs "a = b") 0 Hj) as (m & Em & Hc & Ht & Hto).
  - pose proof max_ipc. change (length (bs "a = b")) with 5%nat. lia.
  - vm_compute. intros H. repeat destruct H as [H|H]; try discriminate H. exact H.
  - exists m. split; [eexists; split; [exact Hc|reflexivity]|]. split; [exact Ht|]. intros wr con texts grabs d Hd.
    destruct (message_type _ _ _ _ _ Em) as (_ & _ & Hs). unfold handle_client. rewrite Hs, Hto, Ht, Hd.
    change (4096 <=? N.of_nat (length (bs "a = b"))) with false. cbv iota zeta. change (1000000 <? 0) with false. cbv iota.
    eexists. split; [reflexivity|]. reflexivity.
Qed.

(* ---- keyd listen ------------------------------------------------------------------------ *)
Lemma handed_prefix : forall rs buf, prefix_of (handed rs buf) buf.
Proof.
  induction rs as [|r rs IH]; intros [|b l]; cbn [handed]; try (eexists; reflexivity). destruct r as [n|]; [|eexists; reflexivity].
  destruct (IH (skipn n (b :: l))) as [t E]. exists t. rewrite <- app_assoc, <- E. symmetry. apply firstn_skipn.
Qed.
Lemma handed_all : forall rs buf acc s, xwrite rs buf acc = IoDone s -> handed rs buf = buf.
Proof.
  induction rs as [|r rs IH]; intros [|b l] acc s H; cbn [xwrite handed] in *; try reflexivity; try discriminate H.
  destruct r as [n|]; [|discriminate H]. rewrite (IH _ _ _ H). apply firstn_skipn.
Qed.
(* What it prints is at every moment a prefix of what it received, and all of it as long as
   standard output takes what is written and poll works. *)
Theorem C82_listen : forall ts, prefix_of (fst (listen_loop ts [])) (received ts) /\ snd (listen_loop ts []) <> IoUB /\
  (Forall taking ts -> fst (listen_loop ts []) = received ts).
Proof.
  assert (G : forall ts out, (exists got, fst (listen_loop ts out) = out ++ got /\ prefix_of got (received ts) /\ (Forall taking ts -> got = received ts))
    /\ snd (listen_loop ts out) <> IoUB).
  { assert (K : forall out l io, io <> @IoUB Z -> (exists got, fst (out : list N, io) = out ++ got /\ prefix_of got [] /\ (Forall taking l -> got = []))
      /\ snd (out, io) <> IoUB).
    { intros out l io H. split; [|exact H]. exists []. rewrite app_nil_r. split; [reflexivity|]. split; [now exists []|auto]. }
    induction ts as [|t ts IH]; intros out; [now apply K|].
    destruct t as [| | |[[|b r]|] ws]; cbn [listen_loop received]; try (now apply K).
    - destruct (IH out) as ((got & A & B & C) & D). split; [|exact D]. exists got. split; [exact A|]. split; [exact B|].
      intros F. apply Forall_cons_iff in F as [_ F]. auto.
    - destruct (xwrite ws (b :: r) []) as [s| | |] eqn:E.
      + pose proof (handed_all _ _ _ _ E) as Hh. rewrite Hh. destruct (IH (out ++ b :: r)) as ((got & A & [t B] & C) & D). split; [|exact D].
        exists ((b :: r) ++ got). rewrite A, <- app_assoc. split; [reflexivity|]. split; [exists t; now rewrite B, <- app_assoc|].
        intros F. apply Forall_cons_iff in F as [_ F]. now rewrite (C F).
      + split; [|discriminate]. exists (handed ws (b :: r)). split; [reflexivity|]. split.
        * destruct (handed_prefix ws (b :: r)) as [t B]. exists (t ++ received ts). rewrite B at 1. now rewrite <- app_assoc.
        * intros F. apply Forall_cons_iff in F as [(ns & -> & T) _]. rewrite (C56_written ns) in E by exact T. discriminate E.
      + now elim (xwrite_ub _ _ _ E).
      + split; [|discriminate]. exists (handed ws (b :: r)). split; [reflexivity|]. split.
        * destruct (handed_prefix ws (b :: r)) as [t B]. exists (t ++ received ts). rewrite B at 1. now rewrite <- app_assoc.
        * intros F. apply Forall_cons_iff in F as [(ns & -> & T) _]. rewrite (C56_written ns) in E by exact T. discriminate E. }
  intros ts. destruct (G ts []) as ((got & A & B & C) & D). rewrite A. cbn [app]. auto.
Qed.
(* With the daemon at the other end: what `keyd listen` prints is a prefix of the greeting
   and the announcements of what all engines did since, and all of it if everything was
   received and standard output takes it. *)
Theorem C82_listener : forall fuel wr l con x g ts d d1 t d' k p, runs fuel wr l -> was l d -> short_names (d_ents d) ->
  event_handler fuel wr (EvClient con (msg_of (msg_bytes listen_message)) x g) ts d = Ok (d1, t) ->
  ~ In con (d_lst d) -> In con (d_lst d1) -> d_active d = Some p -> deref d p = Ok k -> wr (d_nw d) = true ->
  later fuel wr (connected con) d1 d' -> In con (d_lst d') ->
  exists log,
    (forall j k1 k', nth_error (d_ents d) j = Some k1 -> nth_error (d_ents d') j = Some k' -> k_out k' = rev (effects j log) ++ k_out k1) /\
    let stream := concat (fst (greeting k) :: snd (greeting k) ++ texts_of (d_ents d) log) in
    concat (inbox con (d_out d')) = concat (inbox con (d_out d)) ++ stream /\
    forall turns, prefix_of (received turns) stream ->
      prefix_of (fst (listen_loop turns [])) stream /\
      (received turns = stream -> Forall taking turns -> fst (listen_loop turns []) = stream).
Proof.
  intros fuel wr l con x g ts d d1 t d' k p R W Hs He Hn Hi Hp Hk Hw Hl Hi'.
  assert (Hm : i_type (msg_of (msg_bytes listen_message)) = IListen) by reflexivity.
  pose proof (C45_greeting _ _ _ _ _ _ _ _ _ _ _ _ He Hm Hn Hi Hp Hk) as G. rewrite Hw in G.
  destruct (handler_listen _ _ _ _ _ _ _ _ _ _ He Hm Hn Hi) as (d2 & Ha & E1).
  destruct (was_seen _ _ _ _ _ (runs_entries _ _ _ R) W) as [_ F].
  assert (Se : same_ents d d1).
  { subst d1. assert (X : same_ents (set_d_times ts (Z.max 0 (d_timeout d - (ts - d_last d))) d) d2).
    { revert Ha. apply listener_keeps; intros; try (repeat split; fail). eapply same_ents_trans; eauto. }
    exact X. }
  destruct Se as (S1 & _ & S2 & _).
  assert (N : named d1).
  { unfold named. rewrite S1. split; [exact Hs|].
    eapply Forall_impl; [|exact F]. intros k0 [_ (text0 & c0 & _ & Hr)]. eapply reach_origin; eauto. }
  assert (C1 : (cnt con (d_lst d1) <= 1)%nat).
  { subst d1. cbn [d_lst set_d_times]. assert (Z0 : cnt con (d_lst d) = 0%nat) by (apply (count_occ_not_In Nat.eq_dec); exact Hn).
    unfold add_listener in Ha. cbn [d_lst d_active set_d_times] in Ha. destruct (Nat.eqb (length _) _).
    - apply Ok_inj in Ha. subst d2. cbn [vemit d_lst set_d_out set_d_times]. lia.
    - rewrite Hp in Ha. destruct (deref _ p) as [k0| | |]; cbn [bind] in Ha; try discriminate Ha.
      unfold write_msg in Ha. match type of Ha with context [send_layers ?a ?b ?c ?d ?e] => destruct (send_layers a b c d e) as [d3 o3] eqn:E3 end.
      destruct o3.
      + apply send_layers_spec in E3 as [E3 _]. apply Ok_inj in Ha. subst d2. cbn [d_lst set_d_lst]. rewrite E3.
        cbn [vemit d_lst set_d_out set_d_nw set_d_times]. rewrite cnt_app, cnt_one, Z0. destruct (Nat.eqb _ _); lia.
      + apply Ok_inj in Ha. subst d2. cbn [vemit d_lst set_d_out set_d_times] in Hi |- *.
        match type of E3 with send_layers ?a ?b ?c ?d ?e = _ => assert (X : d_lst d3 = d_lst e) by (apply (send_false a b c d e d3); exact E3) end.
        exfalso. apply Hn. rewrite X in Hi. exact Hi. }
  destruct (later_told fuel wr con d1 d' Hl N) as (_ & log & [_ T] & _ & G2).
  exists log. rewrite S1 in T, G2. split.
  - intros j k1 k' A B. now destruct (G2 _ _ _ A B).
  - cbv zeta. split.
    + rewrite (T C1 Hi'), G. cbn [concat app]. rewrite ?concat_app. cbn [concat app]. rewrite ?concat_app, ?app_nil_r, <- ?app_assoc. reflexivity.
    + intros turns [rest P]. destruct (C82_listen turns) as ([r2 A] & _ & C). split.
      * exists (r2 ++ rest). rewrite P, A. now rewrite <- app_assoc.
      * intros Er Ft. rewrite (C Ft). exact Er.
Qed.
(* ---- examples --------------------------------------------------------------------------- *)
(* What a test client meets: the answer [a] read in two pieces, standard output taking
   four bytes at a time. *)
Definition meets (m : imsg) (a : answer) : talk :=
  mkTalk [Some 100%nat; Some 5000%nat] (map Some [firstn 3 (answer_bytes a); skipn 3 (answer_bytes a)])
         (repeat (Some 4%nat) 10) [Some 0%nat; Some 1%nat].
Lemma meets_hears m a : hears (meets m a) a.
Proof.
  exists [Some MSG_SIZE; Some (length (answer_bytes a))], (answer_bytes a), [firstn 3 (answer_bytes a); skipn 3 (answer_bytes a)], [].
  split; [|split].
  - unfold send_answer. fold (answer_bytes a). apply (C56_written [MSG_SIZE; length (answer_bytes a)]). unfold takes_all. cbn [fold_right]. lia.
  - unfold pieces. cbn [concat]. rewrite app_nil_r. apply firstn_skipn.
  - cbn [meets t_recv]. now rewrite app_nil_r.
Qed.
Definition junk0 : list N := repeat 0 MAX_IPC.
Definition list_eqbN (a b : list N) : bool := str_eqb a b.
(* `keyd bind a=b a=`: the second is refused. *)
Example C82_bind_example :
  let answers := [Done; Failed (bs "Invalid binding")] in
  Forall worded answers /\ Forall2 hears (map (meets listen_message) answers) answers /\
  exists ss, bind_command junk0 [bs "a=b"; bs "a="] (map (meets listen_message) answers) = IoDone (ss, bs "Invalid binding" ++ [10], (-1)%Z).
Proof.
  cbv zeta. split; [|split].
  - constructor; [exact Logic.I|constructor; [|constructor]]. split; [vm_compute; reflexivity|]. vm_compute. intros H. repeat destruct H as [H|H]; try discriminate H. exact H.
  - constructor; [apply meets_hears|constructor; [apply meets_hears|constructor]].
  - assert (G : match bind_command junk0 [bs "a=b"; bs "a="] (map (meets listen_message) [Done; Failed (bs "Invalid binding")]) with
               | IoDone (_, p, z) => list_eqbN p (bs "Invalid binding" ++ [10]) && Z.eqb z (-1) | _ => false end = true) by (vm_compute; reflexivity).
    destruct (bind_command _ _ _) as [[[ss p] z]| | |]; try discriminate G. apply andb_true_iff in G as [G1 G2].
    apply str_eqb_true in G1. apply Z.eqb_eq in G2. subst. now exists ss.
Qed.
(* `keyd input` of a text: a refusal is printed and gives 1, a success prints nothing. *)
Example C82_text_example : 
  (exists s, text_command junk0 IInput [bs "hi"] [] (meets listen_message (Failed (bs "no"))) = IoDone (s, bs "no" ++ [10], 1%Z)) /\
  (exists s, text_command junk0 IInput [bs "hi"] [] (meets listen_message Done) = IoDone (s, [], 0%Z)).
Proof.
  assert (G : forall a want z, match text_command junk0 IInput [bs "hi"] [] (meets listen_message a) with
               | IoDone (_, p, z') => list_eqbN p want && Z.eqb z' z | _ => false end = true ->
              exists s, text_command junk0 IInput [bs "hi"] [] (meets listen_message a) = IoDone (s, want, z)).
  { intros a want z G. destruct (text_command _ _ _ _ _) as [[[s p] z']| | |]; try discriminate G. apply andb_true_iff in G as [G1 G2].
    apply str_eqb_true in G1. apply Z.eqb_eq in G2. subst. now exists s. }
  split; apply G; vm_compute; reflexivity.
Qed.
(* A listener of the daemon of C45_ex that has received all, in pieces that do not
   respect the lines. *)
Example C82_listen_example : exists l d1 t d', runs 50 all_ok l /\ event_handler 50 all_ok (listen 9) 100 (lp_d l) = Ok (d1, t) /\
  later 50 all_ok (fun ev => connected 9 ev /\ unbinding ev) d1 d' /\
  let turns := [TRead (Some (bs "/ma")) [Some 2%nat; Some 1%nat]; TIdle; TRead (Some (bs "in" ++ [10] ++ bs "+on")) [Some 6%nat];
                TRead (Some (bs "e" ++ [10] ++ bs "+one" ++ [10] ++ bs "-one" ++ [10])) [Some 50%nat]; TRead (Some []) []] in
  received turns = concat (inbox 9 (d_out d')) /\ Forall taking turns /\
  listen_loop turns [] = (concat (inbox 9 (d_out d')), IoDone (-1)%Z).
Proof.
  destruct C45_ex as (l & d1 & t & d' & R & E & La & H & _). exists l, d1, t, d'. split; [exact R|]. split; [exact E|]. split; [exact La|].
  rewrite H. cbv zeta. split; [vm_compute; reflexivity|]. split; [|vm_compute; reflexivity].
  repeat (apply Forall_cons || apply Forall_nil); cbn [taking]; try exact Logic.I;
    [exists [2%nat; 1%nat]|exists [6%nat]|exists [50%nat]|exists []]; (split; [reflexivity|]); unfold takes_all; vm_compute; lia.
Qed.
Definition C82_all := (C82_answer, C82_ends, C82_text, C82_reload, C82_bind, C82_silence_refuted, C82_hangup_refuted, C82_unloaded_refuted, C82_listen, C82_listener,
  C82_bind_example, C82_text_example, C82_listen_example).
Print Assumptions C82_all.
