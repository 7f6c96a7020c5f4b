(* C56, C57: the command line client and the transfer of its messages. *)
From Coq Require Import String.
From Verif Require Import Base Lib Types Keys KeyTable Str Config Daemon SpecNotation NotationProofs PropNotation SpecClient PropClient Client SpecCli.
From Coq Require Import List.
Import ListNotations.
Local Open Scope N_scope.
Local Open Scope list_scope.
Local Notation length := List.length.
Local Opaque MAX_IPC MSG_SIZE.

(* ---- transfer --------------------------------------------------------------------------- *)
Lemma skipn_skipn_app {A} n (l : list A) : firstn n l ++ skipn n l = l. Proof. apply firstn_skipn. Qed.
(* Whatever amounts the system takes, xwrite either hands over everything or ends the
   process ... *)
Theorem C56_write : forall rs bytes sent, xwrite rs bytes [] = IoDone sent -> sent = bytes.
Proof.
  assert (G : forall rs bytes acc sent, xwrite rs bytes acc = IoDone sent -> sent = acc ++ bytes).
  { induction rs as [|r rs IH]; intros bytes acc sent H; cbn [xwrite] in H; destruct bytes as [|b bytes];
      try (injection H as <-; now rewrite app_nil_r); try discriminate.
    destruct r as [n|]; [|discriminate]. apply IH in H. now rewrite <- app_assoc, firstn_skipn in H. }
  intros rs bytes sent H. now apply G in H.
Qed.
Theorem C56_written : forall ns bytes, takes_all ns bytes -> xwrite (map Some ns) bytes [] = IoDone bytes.
Proof.
  assert (G : forall ns bytes acc, takes_all ns bytes -> xwrite (map Some ns) bytes acc = IoDone (acc ++ bytes)).
  { unfold takes_all. induction ns as [|n ns IH]; intros bytes acc H; cbn [fold_right map xwrite] in *.
    - destruct bytes; [now rewrite app_nil_r|cbn [length] in H; lia].
    - destruct bytes as [|b bytes]; [now rewrite app_nil_r|]. rewrite IH; [now rewrite <- app_assoc, firstn_skipn|].
      rewrite skipn_length. lia. }
  intros ns bytes H. now apply (G ns bytes []).
Qed.
(* ... and in whatever pieces the bytes arrive, xread puts them together. *)
Theorem C56_read : forall cs bytes later, pieces bytes cs -> xread (map Some cs ++ later) (length bytes) [] = IoDone bytes.
Proof.
  assert (G : forall cs later acc, xread (map Some cs ++ later) (length (concat cs)) acc = IoDone (acc ++ concat cs)).
  { induction cs as [|c cs IH]; intros later acc; cbn [map concat app].
    - rewrite app_nil_r. now destruct later as [|[?|] ?].
    - rewrite app_length. destruct (length c + length (concat cs))%nat as [|n] eqn:E.
      + destruct c; [|cbn [length] in E; lia]. destruct (concat cs); [now rewrite app_nil_r|cbn [length] in E; lia].
      + cbn [xread]. rewrite <- E. replace (length c + length (concat cs) - length c)%nat with (length (concat cs)) by lia.
        rewrite IH, <- app_assoc. reflexivity. }
  intros cs bytes later <-. apply (G cs later []).
Qed.
(* A client that goes away before its message is complete: the daemon never gets out of
   the loop, however often it is told that the stream has ended. *)
Theorem C56_hangup_refuted : exists sent, forall n, xread (Some sent :: repeat (Some []) n) MSG_SIZE [] = IoMore.
Proof.
  exists [3; 0; 0; 0]. intros n.
  assert (G : forall n k acc, xread (repeat (Some []) n) (S k) acc = IoMore).
  { induction n0 as [|m IH]; intros k acc; [reflexivity|]. cbn [repeat xread length]. rewrite Nat.sub_0_r. apply IH. }
  assert (E : MSG_SIZE = S (S (S (S (S (4107)))))) by reflexivity. rewrite E. cbn [xread length]. cbn [Nat.sub]. apply G.
Qed.

(* ---- messages --------------------------------------------------------------------------- *)
Lemma le_length n v : length (le n v) = n.
Proof. revert v. induction n as [|n IH]; intros v; [reflexivity|]. cbn [le length]. now rewrite IH. Qed.
Lemma unle_le n v : v < 256 ^ N.of_nat n -> unle (le n v) = v.
Proof.
  revert v. induction n as [|n IH]; intros v H.
  - change (256 ^ N.of_nat 0) with 1 in H. cbn. lia.
  - cbn [le unle]. rewrite IH.
    + pose proof (N.div_mod v 256). lia.
    + apply N.div_lt_upper_bound; [lia|]. rewrite Nat2N.inj_succ, N.pow_succ_r' in H. exact H.
Qed.
Lemma firstn_exact {A} n (a b : list A) : length a = n -> firstn n (a ++ b) = a.
Proof. intros <-. rewrite firstn_app, Nat.sub_diag, firstn_O, app_nil_r. apply firstn_all. Qed.
Lemma skipn_exact {A} n (a b : list A) : length a = n -> skipn n (a ++ b) = b.
Proof. intros <-. rewrite skipn_app, Nat.sub_diag, skipn_all. reflexivity. Qed.
Theorem C56_bytes : forall m, fits m -> length (msg_bytes m) = MSG_SIZE /\ msg_of (msg_bytes m) = m.
Proof.
  intros [t to dat sz] (Hto & Hd & Hs). cbn [i_type i_timeout i_data i_sz] in *. unfold msg_bytes, msg_of. cbn [i_type i_timeout i_data i_sz].
  split.
  - rewrite !app_length, !le_length, Hd. reflexivity.
  - rewrite (firstn_exact 4) by apply le_length. rewrite (skipn_exact 4) by apply le_length.
    rewrite (firstn_exact 4) by apply le_length. rewrite unle_le by (destruct t; vm_compute; reflexivity).
    rewrite unle_le by exact Hto.
    assert (E : forall x : list N, skipn 8 (le 4 (type_num t) ++ le 4 to ++ x) = x).
    { intros x. rewrite app_assoc. apply skipn_exact. rewrite app_length, !le_length. reflexivity. }
    rewrite E. rewrite firstn_exact by exact Hd.
    replace (skipn (8 + MAX_IPC) _) with (le 8 sz).
    + rewrite unle_le by exact Hs. f_equal. destruct t; reflexivity.
    + symmetry. rewrite app_assoc, app_assoc. apply skipn_exact. rewrite !app_length, !le_length, Hd. reflexivity.
Qed.

(* ---- the text of a message -------------------------------------------------------------- *)
Lemma max_ipc : N.of_nat MAX_IPC = 4096. Proof. vm_compute. reflexivity. Qed.
Lemma read_args_ok args : forall buf, (length (buf ++ sentence args) < MAX_IPC)%nat -> read_args args buf = IoDone (buf ++ sentence args).
Proof.
  induction args as [|a r IH]; intros buf H; cbn [read_args].
  - cbn [sentence]. now rewrite app_nil_r.
  - destruct r as [|b r].
    + cbn [sentence] in *. rewrite app_nil_r. destruct (Nat.leb_spec MAX_IPC (length (buf ++ a))); [lia|reflexivity].
    + change (sentence (a :: b :: r)) with (a ++ 32 :: sentence (b :: r)) in *.
      assert (E : buf ++ a ++ 32 :: sentence (b :: r) = (buf ++ a ++ [32]) ++ sentence (b :: r)) by (now rewrite <- !app_assoc).
      rewrite E in *. rewrite app_length in H. destruct (Nat.leb_spec MAX_IPC (length (buf ++ a ++ [32]))); [lia|].
      apply IH. rewrite app_length. exact H.
Qed.
Lemma read_args_long args : forall buf, args <> [] -> (MAX_IPC <= length (buf ++ sentence args))%nat -> read_args args buf = IoExit.
Proof.
  induction args as [|a r IH]; intros buf Hn H; [now contradict Hn|]. cbn [read_args]. destruct r as [|b r].
  - cbn [sentence] in H. rewrite app_nil_r. destruct (Nat.leb_spec MAX_IPC (length (buf ++ a))); [reflexivity|lia].
  - change (sentence (a :: b :: r)) with (a ++ 32 :: sentence (b :: r)) in *.
    assert (E : buf ++ a ++ 32 :: sentence (b :: r) = (buf ++ a ++ [32]) ++ sentence (b :: r)) by (now rewrite <- !app_assoc).
    rewrite E in *. destruct (Nat.leb_spec MAX_IPC (length (buf ++ a ++ [32]))); [reflexivity|]. apply IH; [discriminate|exact H].
Qed.
Lemma read_stdin_ok cs : forall buf later, Forall (fun c => c <> []) cs -> (length (buf ++ concat cs) < MAX_IPC)%nat ->
  read_stdin (map Some cs ++ Some [] :: later) buf = IoDone (buf ++ concat cs).
Proof.
  induction cs as [|c cs IH]; intros buf later F H; cbn [map app read_stdin concat].
  - now rewrite app_nil_r.
  - apply Forall_cons_iff in F as [Hc F]. destruct c as [|x c]; [now contradict Hc|].
    cbn [concat] in H. rewrite app_assoc in H.
    destruct (Nat.eqb_spec (length (buf ++ x :: c)) MAX_IPC) as [E|_]; [rewrite app_length in H; lia|].
    rewrite IH by assumption. now rewrite <- app_assoc.
Qed.
Lemma sentence_clean ws : Forall c_string ws -> ~ In 0 (sentence ws).
Proof.
  induction ws as [|w r IH]; intros F X; [exact X|]. apply Forall_cons_iff in F as [Hw F]. destruct r as [|b r]; [now apply Hw|].
  change (sentence (w :: b :: r)) with (w ++ 32 :: sentence (b :: r)) in X. apply in_app_iff in X as [X|[X|X]]; [now apply Hw|discriminate|now apply IH].
Qed.
Lemma message_made junk t text to : length junk = MAX_IPC -> (length text < MAX_IPC)%nat -> ~ In 0 text ->
  exists m, ipc_message junk t text to = IoDone m /\ carries m text /\ i_type m = t /\ i_timeout m = to.
Proof.
  intros Hj Hl Hz. unfold ipc_message. destruct (Nat.leb_spec (length text) MAX_IPC); [|lia].
  eexists. split; [reflexivity|]. split; [|split; reflexivity]. exists (skipn (length text) junk). cbn [i_data i_sz].
  split; [reflexivity|]. split; [reflexivity|]. split.
  - rewrite <- max_ipc. f_equal. rewrite app_length, skipn_length. lia.
  - split; [|exact Hz]. rewrite <- max_ipc. lia.
Qed.
(* ---- the time-out ----------------------------------------------------------------------- *)
Lemma digits_val_le ds : Forall (fun c => 48 <= c <= 57) ds -> forall a, digits_val (Z.of_N a) ds = Z.of_N (fold_left (fun a c => a * 10 + (c - 48)) ds a).
Proof.
  induction ds as [|c r IH]; intros F a; [reflexivity|]. apply Forall_cons_iff in F as [Hc F]. cbn [digits_val fold_left].
  unfold is_digit. destruct (N.leb_spec 48 c); [|lia]. destruct (N.leb_spec c 57); [|lia]. cbn [andb].
  rewrite <- IH by exact F. f_equal. lia.
Qed.
Lemma atoi_digits ds n : ds <> [] -> Forall (fun c => 48 <= c <= 57) ds -> n = fold_left (fun a c => a * 10 + (c - 48)) ds 0 -> n <= 1000000 ->
  Z.to_N (atoi ds mod 4294967296)%Z = n.
Proof.
  intros Hn F -> Hm. destruct ds as [|c r]; [now contradict Hn|]. pose proof F as F'. apply Forall_cons_iff in F' as [Hc _].
  assert (D : drop_while isspace (c :: r) = c :: r).
  { cbn [drop_while]. assert (E : isspace c = false); [|now rewrite E]. unfold isspace. repeat (destruct (N.eqb_spec c _); [lia|]); cbn; lia. }
  assert (E : atoi (c :: r) = wrap_s 32 (clamp_long (digits_val (Z.of_N 0) (c :: r)))).
  { unfold atoi. rewrite D. f_equal. f_equal. assert (C : c <> 45 /\ c <> 43) by lia. clear - C. destruct c as [|p]; [reflexivity|].
    do 6 (destruct p as [p|p|]; try reflexivity); exfalso; lia. }
  rewrite E, digits_val_le by exact F. set (n := fold_left _ _ _) in *. unfold clamp_long, wrap_s.
  rewrite Z.min_r by lia. rewrite Z.max_r by lia.
  change (2 ^ (32 - 1))%Z with 2147483648%Z. change (2 ^ 32)%Z with 4294967296%Z.
  rewrite (Z.mod_small (Z.of_N n + 2147483648)) by lia. rewrite Z.mod_small by lia. lia.
Qed.
Lemma timed_message junk t args stdin to words : timed args to words ->
  text_message junk t args stdin = io_bind (read_input words stdin) (fun text => ipc_message junk t text to) /\ to <= 1000000.
Proof.
  intros H. destruct H as [args Hn|n ds r Hd F E Hm].
  - split; [|lia]. unfold text_message. destruct args as [|o [|n r]]; try reflexivity.
    destruct (str_eqb o (bs "-t")) eqn:E; [|reflexivity]. apply str_eqb_eq in E. subst o. destruct (Hn n r). reflexivity.
  - split; [|exact Hm]. unfold text_message. change (str_eqb (bs "-t") (bs "-t")) with true. cbv iota. now rewrite (atoi_digits ds n).
Qed.

(* `keyd input …` and `keyd do …` send one message carrying the arguments joined by blanks,
   or what is on standard input when there are none, with the time-out asked for. *)
Theorem C56_text : forall junk t args to words stdin, length junk = MAX_IPC -> timed args to words -> words <> [] -> Forall c_string words ->
  N.of_nat (length (sentence words)) < 4096 ->
  exists m, text_message junk t args stdin = IoDone m /\ carries m (sentence words) /\ i_type m = t /\ i_timeout m = to.
Proof.
  intros junk t args to words stdin Hj T Hn F H. destruct (timed_message junk t args stdin to words T) as [-> _].
  rewrite <- max_ipc in H. unfold read_input. destruct words as [|w r]; [now contradict Hn|].
  rewrite (read_args_ok (w :: r) []) by (cbn [app]; lia). cbn [io_bind app]. apply message_made; [exact Hj|lia|now apply sentence_clean].
Qed.
Theorem C56_stdin : forall junk t args to cs later, length junk = MAX_IPC -> timed args to [] -> Forall (fun c => c <> []) cs -> c_string (concat cs) ->
  N.of_nat (length (concat cs)) < 4096 ->
  exists m, text_message junk t args (map Some cs ++ Some [] :: later) = IoDone m /\ carries m (concat cs) /\ i_type m = t /\ i_timeout m = to.
Proof.
  intros junk t args to cs later Hj T F Hz H. destruct (timed_message junk t args (map Some cs ++ Some [] :: later) to [] T) as [-> _].
  rewrite <- max_ipc in H. unfold read_input. rewrite read_stdin_ok by (auto; cbn [app]; lia). cbn [io_bind app]. apply message_made; auto. lia.
Qed.
(* Longer arguments are refused before anything is sent. *)
Theorem C56_too_long : forall junk t args to words stdin, timed args to words -> words <> [] -> 4096 <= N.of_nat (length (sentence words)) ->
  text_message junk t args stdin = IoExit.
Proof.
  intros junk t args to words stdin T Hn H. destruct (timed_message junk t args stdin to words T) as [-> _].
  rewrite <- max_ipc in H. unfold read_input. destruct words as [|w r]; [now contradict Hn|].
  rewrite (read_args_long (w :: r) []); [reflexivity|exact Hn|cbn [app]; lia].
Qed.

Lemma carries_fits m text : carries m text -> i_timeout m <= 1000000 -> fits m.
Proof.
  intros (rest & E1 & E2 & E3 & E4 & _) Ht. split; [lia|]. split; [|lia]. apply Nat2N.inj. now rewrite max_ipc.
Qed.
(* From the command line to the virtual keyboard, whatever the system does with the bytes
   on the way. *)
Theorem C56_delivered : forall junk args to words stdin cps evss ns,
  length junk = MAX_IPC -> timed args to words -> words <> [] -> Forall c_string words -> N.of_nat (length (sentence words)) < 4096 ->
  sentence words = flat_map utf8 cps -> Forall scalar cps -> Forall2 char_typed cps evss ->
  exists m, text_message junk IInput args stdin = IoDone m /\
   (takes_all ns (msg_bytes m) ->
    exists sent, xwrite (map Some ns) (msg_bytes m) [] = IoDone sent /\
    forall cs later, pieces sent cs ->
     exists got, xread (map Some cs ++ later) MSG_SIZE [] = IoDone got /\
     forall wr con texts grabs d, exists d', handle_client wr con (msg_of got) texts grabs d = Ok d'
       /\ only_sent d d' (flat_map (paused to) evss ++ [VReply con true])).
Proof.
  intros junk args to words stdin cps evss ns Hj T Hn F H E Sc Ct.
  destruct (C56_text junk IInput args to words stdin Hj T Hn F H) as (m & Em & Hc & Hty & Hto).
  pose proof (proj2 (timed_message junk IInput args stdin to words T)) as Hle. rewrite <- Hto in Hle.
  destruct (C56_bytes m (carries_fits _ _ Hc Hle)) as [L1 L2].
  exists m. split; [exact Em|]. intros Ht. exists (msg_bytes m). split; [now apply C56_written|].
  intros cs later P. exists (msg_bytes m). split; [rewrite <- L1; now apply C56_read|].
  intros. rewrite L2. rewrite E in Hc. rewrite <- Hto. now apply (C54_types wr con m texts grabs d cps evss).
Qed.
(* `keyd bind` sends its arguments one by one, and succeeds iff every answer was success. *)
Theorem C56_bind : forall junk args, length junk = MAX_IPC -> Forall c_string args -> Forall (fun a : str => N.of_nat (length a) < 4096) args ->
  exists ms, bind_messages junk args = (ms, true) /\ Forall2 (fun a m => carries m a /\ i_type m = IBind) args ms.
Proof.
  intros junk args Hj. induction args as [|a r IH]; intros F L; [exists []; split; [reflexivity|constructor]|].
  apply Forall_cons_iff in F as [Ha F]. apply Forall_cons_iff in L as [La L]. destruct (IH F L) as (ms & E & G).
  rewrite <- max_ipc in La. destruct (message_made junk IBind a 0 Hj) as (m & Em & Hc & Ht & _); [lia|exact Ha|].
  exists (m :: ms). cbn [bind_messages]. rewrite Em, E. split; [reflexivity|]. constructor; auto.
Qed.
Theorem C56_bind_status : forall answers, bind_status answers = true <-> ~ In false answers.
Proof.
  assert (Z : forall l, fold_left (fun (ret ok : bool) => if ok then ret else false) l false = false).
  { induction l as [|[|] l IH]; cbn [fold_left]; auto. }
  unfold bind_status. induction answers as [|[|] l IH]; cbn [fold_left In].
  - split; auto.
  - rewrite IH. split; [intros H [X|X]; [discriminate|auto]|auto].
  - rewrite Z. split; [discriminate|intros H; contradict H; now left].
Qed.
(* An oversized expression ends the client, but the ones before it have been applied. *)
Theorem C56_bind_prefix_refuted : exists junk args ms, length junk = MAX_IPC /\ bind_messages junk args = (ms, false) /\ ms <> [].
Proof.
  exists (repeat 0 MAX_IPC), [bs "a = b"; repeat 97 (S MAX_IPC)], [mkMsg IBind 0 (bs "a = b" ++ repeat 0 4091) 5].
  split; [apply repeat_length|]. split; [vm_compute; reflexivity|discriminate].
Qed.
(* An error of read(2) on standard input is taken for data. *)
Theorem C56_stdin_error_refuted :
  text_message (repeat 0 MAX_IPC) IInput [] [None] = IoUB
  /\ read_input [] [Some (bs "abc"); None; Some []] = IoDone (bs "ab").
Proof. split; vm_compute; reflexivity. Qed.

(* ---- commands --------------------------------------------------------------------------- *)
Theorem C56_commands : forall arg c, In (arg, c) documented -> dispatch arg = c.
Proof.
  intros arg c H. cbv [documented In] in H.
  repeat (destruct H as [H|H]; [injection H as <- <-; vm_compute; reflexivity|]). destruct H.
Qed.
Theorem C56_unknown : forall arg, arg <> [] -> (forall c, ~ In (arg, c) documented) -> dispatch arg = CHelp.
Proof.
  intros arg Hne H. unfold dispatch. destruct (find _ commands) as [[[[n f] l] c]|] eqn:E; [|reflexivity].
  apply find_some in E as [I E]. exfalso. rewrite !orb_true_iff, !str_eqb_eq in E.
  cbv [commands In] in I.
  repeat (destruct I as [I|I]; [injection I as <- <- <- <-;
    destruct E as [[E|E]|E]; subst arg; try (now apply Hne); (eapply H; cbv [documented In]; auto 30)|]). destruct I.
Qed.
(* The commands without flags have empty strings for flags: `keyd ""` types. *)
Theorem C56_empty_refuted : dispatch [] = CInput.
Proof. vm_compute. reflexivity. Qed.

(* ---- list-keys -------------------------------------------------------------------------- *)
(* Every line is a name of a key, and every name is there ... *)
Theorem C57_names : forall w, In w list_keys <->
  exists c, name_of c = Some w \/ alt_name_of c = Some w \/ shifted_name_of c = Some w.
Proof.
  intros w. unfold list_keys. rewrite in_flat_map. split.
  - intros ([[n a] s] & I & H). apply (In_nth _ _ no_key) in I as (i & Hi & E). exists (N.of_nat i).
    unfold name_of, alt_name_of, shifted_name_of, row. rewrite Nat2N.id, E. cbn [fst snd]. rewrite !in_app_iff in H.
    destruct H as [H|[H|H]]; [left; destruct n as [x|]|right; left; destruct a as [x|]|right; right; destruct s as [x|]];
      cbn in H; try contradiction; destruct H as [H|H]; try contradiction; now rewrite H.
  - intros (c & H). exists (row c). split.
    + unfold row. destruct (Nat.lt_ge_cases (N.to_nat c) (length keycode_table)) as [L|L]; [now apply nth_In|].
      exfalso. unfold name_of, alt_name_of, shifted_name_of, row in H. rewrite (nth_overflow _ _ L) in H. now destruct H as [H|[H|H]].
    + unfold name_of, alt_name_of, shifted_name_of in H. destruct (row c) as [[n a] s]. cbn [fst snd] in H. rewrite !in_app_iff.
      destruct H as [H|[H|H]]; rewrite H; cbn; auto.
Qed.
(* ... every line that is not blank stands for a key when written in a configuration ... *)
Theorem C57_usable : forall w, In w list_keys -> w <> [] ->
  exists c, (parse_key_sequence w = Some (c, 0) /\ (name_of c = Some w \/ alt_name_of c = Some w))
         \/ (parse_key_sequence w = Some (c, 4) /\ shifted_name_of c = Some w).
Proof.
  intros w H Hw. apply C57_names in H as (c & H). exists c. destruct H as [H|[H|H]].
  - left. split; [|auto]. apply (C34_name c w [] 0 H Hw denotes_nil).
  - left. split; [|auto]. apply (C34_alt_name c w [] 0 H Hw denotes_nil).
  - right. split; [|auto]. apply (C34_shifted_name c w [] 4 H Hw). apply (denotes_snoc [] 0 83 2 denotes_nil letter_S).
Qed.
(* ... every key that can be written in one is written with a listed name ... *)
Theorem C57_complete : forall s c m, parse_key_sequence s = Some (c, m) -> exists ls nm, s = dashed ls ++ nm /\ In nm list_keys.
Proof.
  intros s c m H. apply C34_only in H as (ls & nm & E & H). exists ls, nm. split; [exact E|]. apply C57_names. exists c. tauto.
Qed.
(* ... and no name is listed twice. *)
Fixpoint distinct (l : list str) : bool :=
  match l with [] => true | x :: r => negb (existsb (str_eqb x) r) && distinct r end.
Lemma distinct_ok l : distinct l = true -> NoDup l.
Proof.
  induction l as [|x r IH]; intros H; [constructor|]. cbn [distinct] in H. apply andb_true_iff in H as [H1 H2]. constructor; [|auto].
  intros I. apply negb_true_iff in H1. assert (E : existsb (str_eqb x) r = true); [|congruence]. apply existsb_exists. exists x. split; [exact I|]. now apply str_eqb_eq.
Qed.
Theorem C57_once : NoDup (filter (fun w : str => negb (Nat.eqb (length w) 0)) list_keys).
Proof. apply distinct_ok. vm_compute. reflexivity. Qed.
(* The keys whose alternative name is empty (leftcontrol and so on) produce blank lines. *)
Theorem C57_blank_refuted : exists w, In w list_keys /\ parse_key_sequence w = None.
Proof. exists []. split; [apply C57_names; exists 29; right; left; vm_compute; reflexivity|vm_compute; reflexivity]. Qed.
Example C57_example : In (bs "capslock") list_keys /\ In (bs "?") list_keys /\ parse_key_sequence (bs "?") = Some (53, 4).
Proof.
  split; [apply C57_names; exists 58; vm_compute; auto|]. split; [apply C57_names; exists 53; vm_compute; auto|vm_compute; reflexivity].
Qed.

Example C56_example :
  let m := mkMsg IInput 2000 (bs "hi a" ++ repeat 7 4092) 4 in
  timed [bs "-t"; bs "2000"; bs "hi"; bs "a"] 2000 [bs "hi"; bs "a"]
  /\ text_message (repeat 7 MAX_IPC) IInput [bs "-t"; bs "2000"; bs "hi"; bs "a"] [] = IoDone m
  /\ xwrite [Some 1%nat; Some 2000%nat; Some 0%nat; Some 3000%nat] (msg_bytes m) [] = IoDone (msg_bytes m)
  /\ xread [Some (firstn 3 (msg_bytes m)); Some []; Some (skipn 3 (msg_bytes m))] MSG_SIZE [] = IoDone (msg_bytes m)
  /\ msg_of (msg_bytes m) = m
  /\ text_message (repeat 7 MAX_IPC) IInput [bs "-t"; bs "2000"] [Some (bs "hi"); Some (bs " a"); Some []] = IoDone m
  /\ bind_status [true; false; true] = false /\ dispatch (bs "reload") = CReload /\ dispatch (bs "relod") = CHelp.
Proof.
  cbv zeta. split.
  - apply (timed_opt 2000 (bs "2000")); [discriminate| |vm_compute; reflexivity|lia].
    repeat (constructor; [split; vm_compute; discriminate|]). constructor.
  - vm_compute. repeat split.
Qed.
Definition C56_all := (C56_write, C56_written, C56_read, C56_hangup_refuted, C56_bytes, C56_text, C56_stdin, C56_too_long, C56_delivered, C56_bind,
  C56_bind_status, C56_bind_prefix_refuted, C56_stdin_error_refuted, C56_commands, C56_unknown, C56_empty_refuted, C56_example,
  C57_names, C57_usable, C57_complete, C57_once, C57_blank_refuted, C57_example).
Print Assumptions C56_all.
