(* C70: messages and keyd monitor.  The format of a message is turned into text in one pass:
   marks become colours, conversions become arguments, and the arguments (names of devices,
   paths, texts from the configuration) are printed as they are.  keyd monitor prints one line
   for every key event of a key that has a name. *)
From Coq Require Import String Lia DecimalZ.
From Verif Require Import Base KeyTable Device Log SpecLog LogProofs.
Local Open Scope N_scope.
Local Open Scope list_scope.
Local Notation length := List.length.

(* What a message prints, for every format shorter than 256 bytes *)
Theorem C70_message : forall lv col level f a t,
  Nat.lt (length f) 256 -> proper f ->
  (log lv col level f a = Ok t <->
   ((level <= lv)%Z /\ says col false f a t) \/ ((lv < level)%Z /\ t = [])).
Proof.
  intros lv col level f a t Hl Hp. unfold log.
  destruct (Z.ltb_spec lv level) as [Hv|Hv].
  - split.
    + intro H; injection H as <-. right; auto.
    + intros [[H _]|[_ ->]]; [lia|reflexivity].
  - rewrite colorize_short by assumption. cbn [bind]. split.
    + intro H. left. split; [exact Hv|]. revert H. apply (prints_says col (length f)); auto.
    + intros [[_ H]|[H _]]; [|lia]. now apply says_prints.
Qed.

(* All formats in the program are of this kind *)
Definition fine (f : str) : bool := Nat.ltb (length f) 256 && properb false f.
Theorem C70_formats : Forall (fun f => Nat.lt (length f) 256 /\ proper f) formats.
Proof.
  assert (H : forallb fine formats = true) by (vm_compute; reflexivity).
  rewrite forallb_forall in H. apply Forall_forall. intros f Hf. apply H in Hf.
  unfold fine in Hf. apply andb_true_iff in Hf as [H1 H2]. apply Nat.ltb_lt in H1.
  split; auto. now apply (properb_ok (length f)).
Qed.
(* and so is the greeting of the daemon for every version text without a percent sign *)
Theorem C70_greeting : forall col v, Nat.lt (length v) 200 -> ~ In 37 v ->
  exists t, log 0 col 0 (bs "Starting keyd " ++ v ++ [10]) [] = Ok t /\
            says col false (bs "Starting keyd " ++ v ++ [10]) [] t.
Proof.
  intros col v Hl Hv. set (f := bs "Starting keyd " ++ v ++ [10]).
  assert (Lf : Nat.lt (length f) 256).
  { unfold f. rewrite !app_length. change (length (bs "Starting keyd ")) with 14%nat. cbn [length]. lia. }
  assert (Nf : ~ In 37 f).
  { unfold f. rewrite !in_app_iff. intros [H|[H|H]]; [|tauto|].
    - vm_compute in H. intuition discriminate.
    - vm_compute in H. intuition discriminate. }
  assert (Pf : proper f).
  { intros p r E. exfalso; apply Nf. rewrite E. apply in_app_iff; right; now left. }
  clearbody f. clear v Hl Hv.
  assert (V : forall s, ~ In 37 s -> vprintf false s [] = Ok s).
  { induction s as [|c s IH]; intro H; [reflexivity|]. cbn [vprintf].
    destruct (N.eqb_spec c 37) as [->|]; [exfalso; apply H; now left|].
    rewrite IH by (intro; apply H; now right). reflexivity. }
  assert (Np : forall n s i, Nat.le (length s) n -> ~ In 37 s -> ~ In 37 (paint col s i)).
  { clear. induction n as [|n IH]; intros s i Hn H.
    - destruct s; [intros []|cbn in Hn; lia].
    - destruct s as [|c r]; [intros []|]. cbn [length] in Hn.
      destruct (paint_step col c r i) as
        [(r2 & -> & E & P & _)|(E & [(-> & -> & P & _)|(Hc & P & _)])]; rewrite P.
      + rewrite in_app_iff. intros [X|X].
        * destruct col; [|destruct X].
          destruct X as [X|[X|[X|[X|[X|[]]]]]]; try discriminate. lia.
        * revert X. apply IH; [cbn in Hn; lia|]. intro; apply H; now right; right.
      + rewrite in_app_iff. intros [X|X].
        * destruct col; [|destruct X]. cbn in X. intuition discriminate.
        * revert X. apply IH; [lia|]. intro; apply H; now right.
      + intros [X|X]; [apply H; now left|]. revert X. apply IH; [lia|]. intro; apply H; now right. }
  exists (paint col f false).
  assert (G : log 0 col 0 f [] = Ok (paint col f false)).
  { unfold log. cbn [Z.ltb Z.compare]. rewrite colorize_short by assumption. cbn [bind].
    apply V. apply (Np (length f)); auto. }
  split; [exact G|]. destruct (proj1 (C70_message 0 col 0 f [] _ Lf Pf) G) as [[_ X]|[X _]]; [exact X|lia].
Qed.

(* Without colours a message brings no escape byte of its
   own to the terminal *)
Lemma digits_low u : forall c, In c (digits u) -> 48 <= c.
Proof. induction u; cbn [digits]; intros c H; try destruct H as [<-|H]; try lia; auto; destruct H. Qed.
Lemma hex_low u : forall c, In c (hex_digits u) -> 48 <= c.
Proof. induction u; cbn [hex_digits]; intros c H; try destruct H as [<-|H]; try lia; auto; destruct H. Qed.
Lemma decimal_low z : forall c, In c (decimal z) -> 45 <= c.
Proof.
  unfold decimal. intros c H. destruct (Z.to_int z) as [u|u].
  - pose proof (digits_low u c H). lia.
  - destruct H as [<-|H]; [lia|]. pose proof (digits_low u c H). lia.
Qed.
Theorem C70_colourless : forall i f a t, says false i f a t ->
  ~ In 27 f -> (forall s, In (AStr (Some s)) a -> ~ In 27 s) -> ~ In 27 t.
Proof.
  intros i f a t H; induction H as
    [i a|i l d f a t Hp _ IH|f a t _ IH|i m k x w f a t Hm Hs _ IH|i c f a t H1 H2 H3 _ IH];
    intros Hf Ha.
  - intros [].
  - cbn [app]. apply IH; auto. intro; apply Hf; right; now right.
  - cbn [app]. apply IH; auto. intro; apply Hf; now right.
  - rewrite in_app_iff. intros [X|X].
    + destruct Hs as [s|z|n].
      * apply (Ha s); [now left|exact X].
      * apply decimal_low in X; lia.
      * apply hex_low in X; lia.
    + revert X. apply IH.
      * intro X; apply Hf; right. apply in_app_iff; right; now right.
      * intros s Hs'. apply Ha; now right.
  - intros [X|X]; [apply Hf; now left|]. revert X. apply IH; auto. intro; apply Hf; now right.
Qed.

(* The bound matters: the function writes behind its buffer for a format of 1024 bytes *)
Theorem C70_overrun_refuted : exists f, log 0 false 0 f [] = UB /\ ~ In 37 f.
Proof.
  exists (repeat 97 1024). split; [vm_compute; reflexivity|].
  intro H. apply repeat_spec in H. discriminate.
Qed.

(* The lines of keyd monitor *)
Ltac short_log o :=
  unfold log;
  replace (mo_level o <? 0)%Z with false by (symmetry; apply Z.ltb_ge; assumption);
  rewrite colorize_short by (vm_compute; repeat constructor); cbn [bind];
  destruct (mo_col o);
  match goal with |- context [paint ?b ?s ?i] =>
    let x := eval vm_compute in (paint b s i) in
    replace (paint b s i) with x by (vm_compute; reflexivity) end;
  cbn [vprintf N.eqb Pos.eqb orb andb bind].

Lemma log_device o (what : str) f dv : (0 <= mo_level o)%Z ->
  (what = bs "device added: " /\ f = bs ("device added: %s %s (%s)" ++ NL)) \/
  (what = bs "device removed: " /\ f = bs ("device removed: %s %s (%s)" ++ NL)) ->
  log (mo_level o) (mo_col o) 0 f [AStr (Some (md_id dv)); AStr (Some (md_name dv)); AStr (Some (md_path dv))]
  = Ok (device_line what dv).
Proof.
  intros Hl [[-> ->]|[-> ->]]; short_log o; unfold device_line; cbn [bs app Ascii.N_of_ascii];
    reflexivity.
Qed.
Lemma log_key o dv name (p : bool) : (0 <= mo_level o)%Z ->
  log (mo_level o) (mo_col o) 0 (bs ("%s" ++ TAB ++ "%s" ++ TAB ++ "%s %s" ++ NL))
      [AStr (Some (md_name dv)); AStr (Some (md_id dv)); AStr name; AStr (Some (if p then bs "down" else bs "up"))]
  = match name with Some n => Ok (key_line dv n p) | None => UB end.
Proof.
  intro Hl. destruct name as [n|]; short_log o; try reflexivity.
Qed.
Lemma log_time o ms : (0 <= mo_level o)%Z ->
  log (mo_level o) (mo_col o) 0 (bs ("r{+%ld} ms" ++ TAB)) [ANum ms] = Ok (time_mark (mo_col o) ms).
Proof. intro Hl. short_log o; reflexivity. Qed.

Lemma handler_prints o last ev ts t l : (0 <= mo_level o)%Z ->
  (mon_handler o last ev ts = Ok (Some (t, l)) <-> (prints o last ev ts t /\ l = ts)).
Proof.
  intro Hl. destruct ev as [dv|dv|dv code p|dv| | ]; cbn [mon_handler].
  - rewrite (log_device o (bs "device added: ")) by auto. cbn [bind]. split.
    + intro H; injection H as <- <-. split; constructor.
    + intros [H ->]. inversion H; subst. reflexivity.
  - rewrite (log_device o (bs "device removed: ")) by auto. cbn [bind]. split.
    + intro H; injection H as <- <-. split; constructor.
    + intros [H ->]. inversion H; subst. reflexivity.
  - rewrite log_time, log_key by auto.
    destruct (mo_time o) eqn:Et; cbn [andb].
    + destruct (Z.eqb_spec last 0) as [->|Hn]; cbn [negb bind].
      * destruct (name_at code) as [n|] eqn:En; cbn [bind app].
        -- split; [intro H; injection H as <- <-; split; [constructor; auto|reflexivity]|].
           intros [H ->]. inversion H; subst; try (exfalso; congruence); replace name with n by congruence; reflexivity.
        -- split; [discriminate|]. intros [H ->]. inversion H; congruence.
      * destruct (name_at code) as [n|] eqn:En; cbn [bind app].
        -- split; [intro H; injection H as <- <-; split; [constructor; auto|reflexivity]|].
           intros [H ->]. inversion H; subst; try (exfalso; intuition congruence); replace name with n by congruence; reflexivity.
        -- split; [discriminate|]. intros [H ->]. inversion H; congruence.
    + cbn [bind]. destruct (name_at code) as [n|] eqn:En; cbn [bind app].
      * split; [intro H; injection H as <- <-; split; [constructor; auto|reflexivity]|].
        intros [H ->]. inversion H; subst; try (exfalso; congruence); replace name with n by congruence; reflexivity.
      * split; [discriminate|]. intros [H ->]. inversion H; congruence.
  - split; [intro H; injection H as <- <-; split; constructor|].
    intros [H ->]. inversion H; subst. reflexivity.
  - split; [discriminate|]. intros [H _]. inversion H.
  - split; [intro H; injection H as <- <-; split; constructor|].
    intros [H ->]. inversion H; subst. reflexivity.
Qed.

Theorem C70_monitor : forall o evs last t alive, (0 <= mo_level o)%Z ->
  (mon_run o last evs = Ok (t, alive) <-> session o last evs t alive).
Proof.
  intros o evs; induction evs as [|[ev ts] evs IH]; intros last t alive Hl.
  - cbn [mon_run]. split; [intro H; injection H as <- <-; constructor|].
    intro H; inversion H; subst; reflexivity.
  - cbn [mon_run]. destruct (mon_handler o last ev ts) as [[[u l]|]| | |] eqn:E; cbn [bind].
    + apply (handler_prints o) in E as [Hp ->]; [|exact Hl].
      destruct (mon_run o ts evs) as [[u' b]| | |] eqn:Er; cbn [bind fst snd].
      * split.
        -- intro H; injection H as <- <-. econstructor; eauto. now apply IH.
        -- intro H; inversion H; subst.
           ++ inversion Hp.
           ++ assert (X : mon_handler o last ev ts = Ok (Some (u, ts)))
                by (apply handler_prints; auto).
              match goal with H1 : prints _ _ _ _ ?v |- Ok (u ++ _, _) = Ok (?v ++ _, _) =>
                assert (Y : mon_handler o last ev ts = Ok (Some (v, ts)))
                  by (apply handler_prints; auto) end.
              rewrite X in Y. injection Y as ->.
              match goal with H1 : session _ ts _ _ _ |- _ =>
                apply (IH ts) in H1; [rewrite Er in H1; injection H1 as <- <-|exact Hl] end.
              reflexivity.
      * split; [discriminate|]. intro H; inversion H; subst; [inversion Hp|].
        match goal with H1 : session _ ts _ _ _ |- _ => apply (IH ts) in H1; auto; congruence end.
      * split; [discriminate|]. intro H; inversion H; subst; [inversion Hp|].
        match goal with H1 : session _ ts _ _ _ |- _ => apply (IH ts) in H1; auto; congruence end.
      * split; [discriminate|]. intro H; inversion H; subst; [inversion Hp|].
        match goal with H1 : session _ ts _ _ _ |- _ => apply (IH ts) in H1; auto; congruence end.
    + destruct ev as [dv|dv|dv code p|dv| | ]; cbn [mon_handler] in E;
        try (repeat match type of E with context [bind ?x _] => destruct x; cbn [bind] in E end; discriminate).
      split; [intro H; injection H as <- <-; constructor|].
      intro H; inversion H; subst; [reflexivity|].
      match goal with H1 : prints _ _ MFdErr _ _ |- _ => inversion H1 end.
    + split; [discriminate|]. intro H; inversion H; subst; [discriminate|].
      match goal with H1 : prints _ _ _ _ ?v |- _ =>
        assert (X : mon_handler o last ev ts = Ok (Some (v, ts))) by (apply handler_prints; auto) end.
      congruence.
    + split; [discriminate|]. intro H; inversion H; subst; [discriminate|].
      match goal with H1 : prints _ _ _ _ ?v |- _ =>
        assert (X : mon_handler o last ev ts = Ok (Some (v, ts))) by (apply handler_prints; auto) end.
      congruence.
    + split; [discriminate|]. intro H; inversion H; subst; [discriminate|].
      match goal with H1 : prints _ _ _ _ ?v |- _ =>
        assert (X : mon_handler o last ev ts = Ok (Some (v, ts))) by (apply handler_prints; auto) end.
      congruence.
Qed.

(* It is undefined exactly when a key without a name is pressed or released before the pipe
   at stdout is closed *)
Theorem C70_undefined : forall o evs last, (0 <= mo_level o)%Z ->
  (mon_run o last evs = UB <->
   exists pre dv code p ts post, evs = pre ++ (MKey dv code p, ts) :: post /\
     name_at code = None /\ (forall ts', ~ In (MFdErr, ts') pre)) /\
  (mon_run o last evs = UB \/ exists t alive, mon_run o last evs = Ok (t, alive)).
Proof.
  intros o evs; induction evs as [|[ev ts] evs IH]; intros last Hl.
  - cbn [mon_run]. split; [|right; eauto].
    split; [discriminate|]. intros (pre & dv & code & p & ts & post & E & _).
    destruct pre; discriminate.
  - assert (D : (exists t, prints o last ev ts t) \/ ev = MFdErr \/
                (exists dv code p, ev = MKey dv code p /\ name_at code = None)).
    { destruct ev as [dv|dv|dv code p|dv| | ]; auto; try (left; eexists; constructor; fail).
      destruct (name_at code) as [n|] eqn:E; [left|right; right; eauto 6].
      destruct (mo_time o) eqn:Et; [destruct (Z.eq_dec last 0)|]; eexists;
        ((apply prints_key; [eassumption|auto]; fail) || (apply prints_key_time; eauto)). }
    destruct D as [[t Hp]|[->|(dv & code & p & -> & Hn)]].
    + assert (X : mon_handler o last ev ts = Ok (Some (t, ts))) by (apply handler_prints; auto).
      cbn [mon_run]. rewrite X. cbn [bind]. destruct (IH ts Hl) as [I1 I2].
      split.
      * split.
        -- intro H. assert (Y : mon_run o ts evs = UB).
           { destruct I2 as [I2|(u & b & I2)]; auto. rewrite I2 in H; discriminate. }
           apply I1 in Y as (pre & dv & code & p & ts' & post & -> & Hn & Hq).
           exists ((ev, ts) :: pre), dv, code, p, ts', post. repeat split; auto.
           intros t' [E|E]; [|now apply (Hq t')].
           injection E as -> ->. inversion Hp.
        -- intros (pre & dv & code & p & ts' & post & E & Hn & Hq).
           assert (Y : mon_run o ts evs = UB).
           { apply I1. destruct pre as [|e pre]; cbn [app] in E; injection E as E1 E2.
             - subst ev. inversion Hp; congruence.
             - exists pre, dv, code, p, ts', post. repeat split; auto.
               intros t' H; apply (Hq t'); now right. }
           rewrite Y. reflexivity.
      * destruct I2 as [I2|(u & b & I2)]; rewrite I2; cbn [bind]; eauto.
    + cbn [mon_run mon_handler bind]. split; [|right; eauto].
      split; [discriminate|]. intros (pre & dv & code & p & ts' & post & E & Hn & Hq).
      destruct pre as [|e pre]; cbn [app] in E; injection E as E1 E2; [discriminate|].
      exfalso; apply (Hq ts). subst e; now left.
    + assert (X : mon_run o last ((MKey dv code p, ts) :: evs) = UB).
      { cbn [mon_run mon_handler]. rewrite log_time, log_key, Hn by auto.
        destruct (mo_time o && negb (last =? 0)%Z); reflexivity. }
      rewrite X. split; [|auto]. split; auto. intros _.
      exists [], dv, code, p, ts, evs. repeat split; auto.
Qed.

(* Which keys have no name: five of the codes the kernel may report *)
Definition nameless (c : N) : bool :=
  match read_code c with Some k => match name_at k with None => true | Some _ => false end | None => false end.
Definition five : list N := [0; 196; 197; 198; 199].
Lemma assoc_above l c : forallb (fun p => fst p <? 768) l = true -> 768 <= c -> assoc l c = None.
Proof.
  intros H Hc; induction l as [|[a b] l IH]; [reflexivity|].
  cbn [forallb fst] in H. apply andb_true_iff in H as [H1 H2]. apply N.ltb_lt in H1.
  cbn [assoc]. destruct (N.eqb_spec a c); [lia|auto].
Qed.
Lemma in_all_codes c : c < 768 -> In c (map N.of_nat (seq 0 768)).
Proof.
  intro H. apply in_map_iff. exists (N.to_nat c). split; [apply N2Nat.id|].
  apply in_seq. split; [apply Nat.le_0_l|]. change (0 + 768)%nat with 768%nat.
  apply Nat.lt_le_trans with (N.to_nat 768); [lia|]. apply Nat.leb_le; reflexivity.
Qed.
Theorem C70_nameless : forall c,
  (exists k, read_code c = Some k /\ name_at k = None) <-> In c five.
Proof.
  intro c.
  assert (E : (exists k, read_code c = Some k /\ name_at k = None) <-> nameless c = true).
  { unfold nameless. destruct (read_code c) as [k|].
    - destruct (name_at k) eqn:En; split; try discriminate; auto.
      + intros (k' & X & Y). injection X as <-. congruence.
      + intros _. exists k; auto.
    - split; [intros (k & X & _)|]; discriminate. }
  rewrite E. destruct (N.lt_ge_cases c 768) as [H|H].
  - assert (X : forallb (fun c => Bool.eqb (nameless c) (existsb (N.eqb c) five)) (map N.of_nat (seq 0 768)) = true)
      by (vm_compute; reflexivity).
    rewrite forallb_forall in X. specialize (X c (in_all_codes c H)). apply Bool.eqb_prop in X.
    rewrite X, existsb_exists. split.
    + intros (y & Hy & Ey). apply N.eqb_eq in Ey. now subst y.
    + intro Hc. exists c; split; auto. apply N.eqb_refl.
  - assert (X : nameless c = false).
    { unfold nameless, read_code. replace (c <? 256) with false by (symmetry; apply N.ltb_ge; lia).
      rewrite (assoc_above high_codes c) by (auto; vm_compute; reflexivity).
      replace (c <=? 335) with false by (symmetry; apply N.leb_gt; lia).
      now rewrite andb_false_r. }
    rewrite X. split; [discriminate|]. intro Hc. exfalso. cbn in Hc. lia.
Qed.
(* so "it prints a line for every key event" is false *)
Theorem C70_nameless_refuted : exists c k dv, read_code c = Some k /\
  mon_run (mkMo false 0 false) 0 [(MKey dv k true, 5%Z)] = UB.
Proof. exists 196, 196, (mkMd (bs "kbd") (bs "1:2:3") (bs "p")). split; vm_compute; reflexivity. Qed.

(* The terminal: while the command runs the echo is off (if stdout and stdin are terminals)
   and no other mode is changed; afterwards echo and line mode are on and no other mode is
   changed *)
Theorem C70_terminal : forall tty0 tty1 modes n,
  N.testbit (modes_during tty0 tty1 modes) n =
    (if tty0 && tty1 && (n =? 3) then false else N.testbit modes n) /\
  N.testbit (modes_after tty0 tty1 modes) n =
    (if tty0 && ((n =? 3) || (n =? 1)) then true else N.testbit modes n).
Proof.
  intros tty0 tty1 modes n.
  assert (B8 : N.testbit ECHO n = (n =? 3)).
  { change ECHO with (2 ^ 3). rewrite N.pow2_bits_eqb. apply N.eqb_sym. }
  assert (B2 : N.testbit ICANON n = (n =? 1)).
  { change ICANON with (2 ^ 1). rewrite N.pow2_bits_eqb. apply N.eqb_sym. }
  unfold modes_after, modes_during, set_tflags.
  destruct tty0, tty1; cbn [negb andb]; split; try reflexivity;
    repeat (rewrite ?N.lor_spec, ?N.ldiff_spec, ?B8, ?B2);
    destruct (n =? 3), (n =? 1), (N.testbit modes n); reflexivity.
Qed.
(* so the terminal is not always left as it was *)
Theorem C70_restored_refuted : exists modes, modes_after true true modes <> modes.
Proof. exists 2. discriminate. Qed.

(* The virtual keyboard that prints *)
Theorem C70_stdout : forall code state x y,
  stdout_key code state =
    match name_at code with
    | Some n => Ok (bs "key: " ++ n ++ bs ", state: " ++ decimal state ++ [10])
    | None => UB
    end /\
  stdout_move x y = Ok (bs "mouse movement: x: " ++ decimal x ++ bs ", y: " ++ decimal y ++ [10]) /\
  stdout_scroll x y = Ok (bs "mouse scroll: x: " ++ decimal x ++ bs ", y: " ++ decimal y ++ [10]) /\
  stdout_move_abs x y = Ok (bs "absolute mouse movement: x: " ++ decimal x ++ bs ", y: " ++ decimal y ++ [10]).
Proof.
  intros code state x y. unfold stdout_key, stdout_move, stdout_scroll, stdout_move_abs.
  repeat split; try reflexivity. destruct (name_at code); reflexivity.
Qed.

(* The decimal of a number denotes it *)
Theorem C70_decimal : forall z z', decimal z = decimal z' -> z = z'.
Proof.
  assert (I : forall u v, digits u = digits v -> u = v).
  { induction u; destruct v; cbn [digits]; intro H; try discriminate; try reflexivity;
      injection H as H; f_equal; auto. }
  assert (G : forall u v, digits u <> 45 :: digits v).
  { intros u v H. destruct u; cbn [digits] in H; discriminate. }
  intros z z' H. apply DecimalZ.to_int_inj.
  unfold decimal in H. destruct (Z.to_int z) as [u|u], (Z.to_int z') as [v|v].
  - f_equal; auto.
  - now apply G in H.
  - symmetry in H. now apply G in H.
  - injection H as H. f_equal; auto.
Qed.

(* A name with marks and percent signs in it is printed as it is; the second event also shows
   the time since the first; the third is not reached *)
Example C70_example :
  let dv := mkMd (bs "r{100%s}") (bs "0fac:0ade:00000001") (bs "/dev/input/event3") in
  mon_run (mkMo true 0 true) 0 [(MMotion dv, 7%Z); (MKey dv 30 true, 19%Z); (MFdErr, 20%Z); (MKey dv 0 true, 21%Z)]
  = Ok ([27; 91; 51; 49; 109] ++ bs "+12" ++ [27; 91; 48; 109] ++ bs " ms" ++ [9] ++ bs "r{100%s}" ++ [9]
        ++ bs "0fac:0ade:00000001" ++ [9] ++ bs "a down" ++ [10], false).
Proof. vm_compute; reflexivity. Qed.
Example C70_example_message :
  says true false (bs "line m{%zd}: %s") [ANum 12; AStr (Some (bs "b{%d}"))]
       (bs "line " ++ [27; 91; 51; 53; 109] ++ bs "12" ++ [27; 91; 48; 109] ++ bs ": b{%d}").
Proof.
  match goal with |- says _ _ ?f ?a ?t => destruct (proj1 (C70_message 0 true 0 f a t
    ltac:(vm_compute; repeat constructor)
    ltac:(apply (properb_ok 100); [vm_compute; repeat constructor|vm_compute; reflexivity]))
    ltac:(vm_compute; reflexivity)) as [[_ H]|[H _]] end; [exact H|lia].
Qed.

Definition C70_all := (C70_message, C70_formats, C70_greeting, C70_colourless,
  C70_overrun_refuted, C70_monitor, C70_undefined, C70_nameless, C70_nameless_refuted,
  C70_terminal, C70_restored_refuted, C70_stdout, C70_decimal).
Print Assumptions C70_all.
