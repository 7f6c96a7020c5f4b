(* C85: the application mapper. *)
From Coq Require Import String.
From Verif Require Import Base Lib Types Kbd Config Daemon SpecClient SpecText SpecDaemon Mapper SpecMapper MapperProofs.
From Verif Require Hist DaemonProofs PropServe PropDaemon Client PropCli.
Local Open Scope list_scope.
Local Open Scope N_scope.
Local Notation length := List.length.

(* The file is read as the grammar says; it is not read, the script ending with an exception,
   if and only if the grammar gives it no meaning. *)
Theorem C85_file : forall text ss, parse_config text = Some ss <-> file_says text ss.
Proof. exact parse_says. Qed.

(* At any time, if the time of the file tells whether it was changed: for a window whose class
   consists of the words cw and whose title of the words tw, what is asked for is reset and
   the bindings of all sections of the file as it is now that suit, in order. *)
Theorem C85_window : forall lib f0 st f cls title st' args cw tw, title_char lib 45 = false ->
  mapping lib f0 st -> (af_mtime f = af_mtime f0 -> af_text f = af_text f0) ->
  on_window_change lib f st cls title = Some (st', args) ->
  spelt alnum cls cw -> spelt (title_char lib) title tw ->
  exists ss b, file_says (af_text f) ss
    /\ chosen lib (map lower (joined cw)) (py_lower lib (joined tw)) ss b
    /\ args = bs "reset" :: map (py_encode lib) b.
Proof.
  intros lib f0 st f cls title st' args cw tw O M Hm H Hc Ht.
  assert (I : parse_config (af_text f0) = Some (ms_config st) /\ ms_mtime st = af_mtime f0).
  { clear H Hm. induction M as [f1 st H|f1 f2 st st1 c t a M IH Hm H].
    - unfold mapper_start in H. destruct (parse_config _); [|discriminate H]. injection H as <-. auto.
    - destruct IH as [A B]. unfold on_window_change in H. destruct (Z.eqb_spec (af_mtime f2) (ms_mtime st)) as [E|E].
      + destruct (existsb _ _); [discriminate H|]. injection H as <- _. rewrite Hm by congruence. split; [exact A|congruence].
      + destruct (parse_config (af_text f2)); [|discriminate H]. destruct (existsb _ _); [discriminate H|]. injection H as <- _. auto. }
  destruct I as [A B]. unfold on_window_change in H.
  assert (G : exists c, parse_config (af_text f) = Some c /\ args = bs "reset" :: map (py_encode lib) (lookup_bindings lib c (normalize_class cls) (normalize_title lib title))).
  { destruct (Z.eqb_spec (af_mtime f) (ms_mtime st)) as [E|E].
    - destruct (existsb _ _); [discriminate H|]. injection H as _ <-. exists (ms_config st). split; [rewrite Hm by congruence; exact A|reflexivity].
    - destruct (parse_config (af_text f)) as [c|]; [|discriminate H]. destruct (existsb _ _); [discriminate H|]. injection H as _ <-. exists c. auto. }
  destruct G as (c & P & ->). exists c. eexists. split; [now apply parse_says|]. split; [|reflexivity].
  apply lookup_chosen. unfold normalize_class, normalize_title. now rewrite (hyphenate_spelt _ _ _ (eq_refl : alnum 45 = false) Hc), (hyphenate_spelt _ _ _ O Ht).
Qed.
(* every name consists of words *)
Theorem C85_names : forall ok s, exists ws, spelt ok s ws.
Proof. exact spelt_total. Qed.
(* A filter without brackets that contains anything but small letters, digits, - and the
   wildcards suits no class whatsoever. *)
Theorem C85_never : forall lib p x s, ~ In 91 p -> In x p -> ~ (48 <= x <= 57 \/ 97 <= x <= 122 \/ x = 45 \/ x = 42 \/ x = 63) ->
  forall ws, spelt alnum s ws -> ~ suits lib p (map lower (joined ws)).
Proof.
  intros lib p x s Hb Hx Hn ws Hs [[_ F]|[F _]]; [|contradiction].
  destruct (fits_chars _ _ F x Hx) as [E|[E|E]]; try (apply Hn; tauto).
  pose proof (class_chars s x) as C. unfold normalize_class in C. rewrite (hyphenate_spelt alnum s ws eq_refl Hs) in C. apply Hn. specialize (C E). tauto.
Qed.

(* When the daemon has handled these requests, whatever else it did before, in between and
   after (but for loading the files), the configuration of every keyboard is the one of its
   file with the bindings of the window applied in order: nothing of the windows before it. *)
Theorem C85_in_force : forall fuel wr d b d', handled fuel wr d (bs "reset" :: b) d' ->
  Forall2 (fun k k' => k_orig k' = k_orig k /\ in_force (k_orig k) (k_orig k) b (k_cfg k')) (d_ents d) (d_ents d').
Proof.
  intros fuel wr d b d' H. apply handled_forced in H. unfold cfgs in H. revert H. generalize (d_ents d') as l'. generalize (d_ents d) as l.
  induction l as [|k l IH]; intros [|k' l'] H; cbn [map] in H; inversion H as [|? ? ? ? [A B] F]; subst; constructor; auto. cbn [fst snd] in *.
  split; [exact A|]. inversion B as [|? ? ? G|? ? ? ? ? ? Hr]; subst; [assumption|exfalso; now apply Hr].
Qed.
Theorem C85_forgets : forall fuel wr d1 d2 b d1' d2', map k_orig (d_ents d1) = map k_orig (d_ents d2) ->
  handled fuel wr d1 (bs "reset" :: b) d1' -> handled fuel wr d2 (bs "reset" :: b) d2' ->
  map k_cfg (d_ents d1') = map k_cfg (d_ents d2').
Proof.
  intros fuel wr d1 d2 b d1' d2' E H1 H2. apply C85_in_force in H1, H2. revert E H1 H2.
  generalize (d_ents d1') as l1'. generalize (d_ents d2') as l2'. generalize (d_ents d2) as l2. generalize (d_ents d1) as l1.
  induction l1 as [|k1 l1 IH]; intros [|k2 l2] l2' l1' E H1 H2; try discriminate E; inversion H1; inversion H2; subst; [reflexivity|].
  cbn [map] in *. injection E as E1 E2. f_equal; [|eapply IH; eauto].
  repeat match goal with X : _ /\ _ |- _ => destruct X end. rewrite E1 in *. eapply in_force_unique; eauto.
Qed.

(* ---- examples and what does not hold ---------------------------------------------------- *)
Definition lib0 : pylib := mkLib (fun _ _ => false) (fun c => alnum c || (c =? 95)) (map lower) (fun s => s).
Definition text_of (ls : list string) : str := concat (map (fun l => bs l ++ [10]) ls).
Definition app_text : str := Eval vm_compute in
  text_of ["# terminals"; "[st-*]"; "  alt.1 = x"; ""; "[firefox|*private*]"; "a = b"; "[*]"; "c = d"]%string.
Definition window (f : app_file) (cls title : string) : option (list str) :=
  match mapper_start f f with
  | Some st => option_map snd (on_window_change lib0 f st (bs cls) (bs title))
  | None => None
  end.
Example C85_example : window (mkFile 1 app_text) "Firefox" "News (Private Browsing)" = Some (map bs ["reset"; "a = b"; "c = d"]%string)
  /\ window (mkFile 1 app_text) "St_256color" "" = Some (map bs ["reset"; "alt.1 = x"; "c = d"]%string)
  /\ (exists st, mapping lib0 (mkFile 1 app_text) st) /\ title_char lib0 45 = false.
Proof.
  split; [vm_compute; reflexivity|]. split; [vm_compute; reflexivity|]. split; [|reflexivity].
  destruct (mapper_start (mkFile 1 app_text) (mkFile 1 app_text)) as [st|] eqn:E; [exists st; now apply mapping_start|vm_compute in E; discriminate E].
Qed.
(* The binding of [ to ] is taken for a section. *)
Theorem C85_bracket_refuted : exists k k', kbd_eval k (bs "[ = ]") = Ok (k', true)
  /\ parse_config (text_of ["[main]"; "[ = ]"; "a = b"]%string) = Some [(bs "main", [42], []); (bs " = ", [42], [bs "a = b"])].
Proof.
  set (c := Hist.cfg_of (text_of ["[ids]"; "*"; "[main]"]%string)).
  destruct (kbd_eval (new_keyboard c 1) (bs "[ = ]")) as [[k' ok]| | |] eqn:E; [|vm_compute in E; discriminate E..].
  exists (new_keyboard c 1), k'. split.
  - assert (X : match kbd_eval (new_keyboard c 1) (bs "[ = ]") with Ok (_, o) => o | _ => false end = true) by (vm_compute; reflexivity).
    rewrite E in X. now rewrite X in E.
  - vm_compute. reflexivity.
Qed.
(* A section with the very class of the window is not used. *)
Theorem C85_class_refuted : exists f cls, af_text f = text_of ["[Firefox]"; "a = b"]%string /\ cls = "Firefox"%string
  /\ window f cls "" = Some [bs "reset"].
Proof. exists (mkFile 1 (text_of ["[Firefox]"; "a = b"]%string)), "Firefox"%string. split; [reflexivity|]. split; [reflexivity|]. vm_compute. reflexivity. Qed.
(* If the file is written between being read and being asked for its time, the script keeps to
   what it read. *)
Theorem C85_start_refuted : exists f0 f st st' args, mapper_start f0 f = Some st /\ on_window_change lib0 f st (bs "x") [] = Some (st', args)
  /\ af_text f = text_of ["[*]"; "a = c"]%string /\ args = [bs "reset"; bs "a = b"].
Proof.
  exists (mkFile 1 (text_of ["[*]"; "a = b"]%string)), (mkFile 2 (text_of ["[*]"; "a = c"]%string)). do 3 eexists.
  split; [reflexivity|]. split; [vm_compute; reflexivity|]. auto.
Qed.
(* Under Gnome a line with a tab in the title is taken for no window; a signal to reload then
   brings back the bindings of the window before it. *)
Definition gnome_runs (f : app_file) (evs : list gevent) (st : mstate) : list (list str) :=
  snd (fold_left (fun '(g, out) ev => match gnome_step lib0 f g ev with Some (g', a) => (g', out ++ [a]) | None => (g, out) end)
         evs (mkG st [] [], [])).
Theorem C85_signal_refuted : exists f st, mapping lib0 f st
  /\ gnome_runs f [GLine (bs "st-1" ++ [9] ++ bs "t" ++ [10]); GLine (bs "other" ++ [9] ++ bs "a" ++ [9] ++ bs "b" ++ [10]); GSignal] st
     = [[bs "reset"; bs "alt.1 = x"; bs "c = d"]; [bs "reset"; bs "c = d"]; [bs "reset"; bs "alt.1 = x"; bs "c = d"]].
Proof.
  destruct (mapper_start (mkFile 1 app_text) (mkFile 1 app_text)) as [st|] eqn:E; [|vm_compute in E; discriminate E].
  exists (mkFile 1 app_text), st. split; [now apply mapping_start|]. vm_compute in E. injection E as <-. vm_compute. reflexivity.
Qed.
(* a daemon that handles the requests for a window *)
Definition a_daemon : res dstate := reload [text_of ["[ids]"; "*"; "[main]"; "a = x"]%string] (fun _ => true) (d_init []).
Definition asked (d : res dstate) (a : string) : res dstate :=
  d0 <- d ;; '(d1, _) <- event_handler 50 PropDaemon.all_ok (EvClient 7 (PropServe.saying IBind (bs a)) [] (fun _ => true)) 10 d0 ;; Ok d1.
Lemma saying_carries a : N.of_nat (length a) < 4096 -> ~ In 0 a -> (length a <= 4096)%nat -> carries (PropServe.saying IBind a) a /\ i_timeout (PropServe.saying IBind a) <= 1000000.
Proof.
  intros L Z L2. split; [|cbn; lia]. exists (repeat 0 (4096 - length a)). split; [reflexivity|]. split; [reflexivity|].
  split; [|auto]. cbn [i_data PropServe.saying]. rewrite app_length, repeat_length. lia.
Qed.
Example C85_example_daemon : exists d d', a_daemon = Ok d /\ handled 50 PropDaemon.all_ok d [bs "reset"; bs "a = b"] d' /\ d_ents d <> [].
Proof.
  destruct a_daemon as [d| | |] eqn:E; [|vm_compute in E; discriminate E..].
  destruct (asked (asked a_daemon "reset") "a = b") as [d'| | |] eqn:E2; [|vm_compute in E2; discriminate E2..].
  assert (N : d_ents d <> []).
  { assert (X : match a_daemon with Ok d => match d_ents d with [] => false | _ => true end | _ => false end = true) by (vm_compute; reflexivity).
    rewrite E in X. destruct (d_ents d); [discriminate X|discriminate]. }
  exists d, d'. split; [reflexivity|]. split; [|exact N]. rewrite E in E2. unfold asked in E2. cbn [bind] in E2.
  destruct (event_handler 50 PropDaemon.all_ok (EvClient 7 (PropServe.saying IBind (bs "reset")) [] (fun _ => true)) 10 d) as [[d1 t1]| | |] eqn:E3; cbn [bind] in E2; try discriminate E2.
  destruct (event_handler 50 PropDaemon.all_ok (EvClient 7 (PropServe.saying IBind (bs "a = b")) [] (fun _ => true)) 10 d1) as [[d2 t2]| | |] eqn:E4; cbn [bind] in E2; try discriminate E2.
  apply Ok_inj in E2. subst d2.
  assert (C : forall a, In a [bs "reset"; bs "a = b"] -> carries (PropServe.saying IBind a) a /\ i_timeout (PropServe.saying IBind a) <= 1000000).
  { intros a [<-|[<-|[]]]; apply saying_carries; cbn; try lia; intuition discriminate. }
  destruct (C (bs "reset")) as [C1 C2]; [now left|]. destruct (C (bs "a = b")) as [C3 C4]; [right; now left|].
  eapply handled_bind; [|exact C1|exact C2|exact E3|]; [reflexivity|]. eapply handled_bind; [|exact C3|exact C4|exact E4|]; [reflexivity|]. constructor.
Qed.
Definition C85_all := (C85_file, C85_window, C85_names, C85_never, C85_in_force, C85_forgets, C85_bracket_refuted, C85_class_refuted, C85_start_refuted,
  C85_signal_refuted, C85_example, C85_example_daemon).
Print Assumptions C85_all.
