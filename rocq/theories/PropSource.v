(* C63: no key is sent to the host that nobody asked for. *)
From Coq Require Import String.
From Verif Require Import Base Lib KeyTable Keys Types MacroExec Kbd Config Outside Steps Hist SpecTrace SpecMods SpecSource
  SourceProofs SourceParse ExTools.
From Coq Require Import List.
Import ListNotations.
Local Open Scope list_scope.
Local Open Scope N_scope.

(* A key pressed is one whose event the keyboard reported, a modifier, or one that the
   configuration in force at some time has on the right hand side of a binding. *)
Theorem C63_pressed c cs s k x :
  lived c cs s k -> In (OKey x true) (k_out k) ->
  In x s \/ (exists bit, is_modifier bit x) \/ exists c', In c' cs /\ mentions c' x.
Proof.
  intros H Hin. apply lived_from in H as [_ H]. apply fr_out in H. rewrite Forall_forall in H. exact (H _ Hin).
Qed.

(* so is a key released, apart from the numbers which releasing a group of keys takes for
   keys (C27_pause_in_group) *)
Theorem C63_released c cs s k x :
  lived c cs s k -> In (OKey x false) (k_out k) ->
  In x s \/ (exists bit, is_modifier bit x) \/ exists c', In c' cs /\ (mentions c' x \/ miscounted c' x).
Proof.
  intros H Hin. apply lived_from in H as [_ H]. apply fr_out in H. rewrite Forall_forall in H.
  destruct (H _ Hin) as [[X|[X|[c' [X Y]]]]|[c' [X Y]]]; eauto 6.
Qed.

(* In a configuration file, and in what the client adds, every key has a name. *)
Theorem C63_file text c x : config_parse text = Ok (Some c) -> mentions c x -> named_key x.
Proof. intros H M. apply parse_cok in H. exact (c_from_mentions _ _ _ _ H M). Qed.

Lemma eval_cok k exp k' ok : cok (k_cfg k) -> cok (k_orig k) -> kbd_eval k exp = Ok (k', ok) -> cok (k_cfg k') /\ k_orig k' = k_orig k.
Proof.
  intros H1 H2 H. unfold kbd_eval in H. destruct (str_eqb _ _); [apply Ok_inj in H; injection H as <- _; auto|].
  bstep H r E. destruct r as [c b]. apply Ok_inj in H. injection H as <- _. apply entry_cok in E; auto.
Qed.
Lemma lived_cok c cs s k : cok c -> lived c cs s k -> Forall cok cs /\ cok (k_cfg k) /\ cok (k_orig k).
Proof.
  intros Hc. induction 1 as [clk|cs s k fuel evs k' t H [I1 [I2 I3]] E|cs s k exp k' ok H [I1 [I2 I3]] E|cs s k k' H [I1 [I2 I3]] E].
  - split; [constructor; [exact Hc|constructor]|]. split; exact Hc.
  - apply kbd_process_events_steps in E. apply steps_cfg in E as [-> ->]. auto.
  - apply eval_cok in E as [E1 ->]; auto.
  - destruct E; auto.
Qed.

Theorem C63_named text c cs s k x :
  config_parse text = Ok (Some c) -> lived c cs s k -> In (OKey x true) (k_out k) ->
  In x s \/ (exists bit, is_modifier bit x) \/ named_key x.
Proof.
  intros Hp Hl Hin. destruct (C63_pressed _ _ _ _ _ Hl Hin) as [H|[H|[c' [H1 H2]]]]; auto. right. right.
  apply parse_cok in Hp. destruct (lived_cok _ _ _ _ Hp Hl) as [Hf _]. rewrite Forall_forall in Hf.
  exact (c_from_mentions _ _ _ _ (Hf _ H1) H2).
Qed.

(* ---- an example -------------------------------------------------------------------- *)
(* the history of a keyboard: batches of events and requests of the client *)
Fixpoint live (c : config) (l : list (list kev + str)) : option (list config * list N * kbd) :=
  match l with
  | [] => Some ([c], [], new_keyboard c 1000)
  | x :: r =>
      match live c r with
      | None => None
      | Some (cs, s, k) =>
          match x with
          | inl evs => match kbd_process_events 2000 k evs with Ok (k', _) => Some (cs, map ev_code evs ++ s, k') | _ => None end
          | inr exp => match kbd_eval k exp with Ok (k', _) => Some (k_cfg k' :: cs, s, k') | _ => None end
          end
      end
  end.
Lemma live_ok c : forall l cs s k, live c l = Some (cs, s, k) -> lived c cs s k.
Proof.
  induction l as [|x l IH]; intros cs s k H; cbn [live] in H.
  - injection H as <- <- <-. constructor.
  - destruct (live c l) as [[[cs0 s0] k0]|]; [|discriminate]. specialize (IH _ _ _ eq_refl). destruct x as [evs|exp].
    + destruct (kbd_process_events _ _ _) as [[k' t]| | |] eqn:E; try discriminate. injection H as <- <- <-. eapply lv_events; eauto.
    + destruct (kbd_eval _ _) as [[k' t]| | |] eqn:E; try discriminate. injection H as <- <- <-. eapply lv_eval; eauto.
Qed.
Definition pressed_keys (k : kbd) : list N :=
  flat_map (fun o => match o with OKey x true => [x] | _ => [] end) (rev (k_out k)).

(* a chord, a macro, a key with two functions, a key bound to nothing and a
   binding added by the client *)
Definition source_cfg : config := cfg_of (bs "[ids]
*
[main]
j+k = x
a = macro(H C-e)
s = overload(nav, y)
d = noop
[nav]
f = q
"%string).
Definition source_life : list (list kev + str) := rev
  [inl [D 36 1000]; inl [D 37 1010]; inl [U 36 1200]; inl [U 37 1210];
   inl [D 30 1300]; inl [U 30 1310]; inl [D 31 1400]; inl [U 31 1450]; inl [D 31 1500]; inl [D 33 1520]; inl [U 33 1530];
   inl [U 31 1540]; inl [D 32 1600]; inl [U 32 1610]; inr (bs "d = z"%string); inl [D 32 1700]; inl [U 32 1710];
   inl [D 48 1800]; inl [U 48 1810]].
Example C63_example : exists cs s k, lived source_cfg cs s k
  /\ pressed_keys k = [45; 42; 35; 29; 18; 21; 16; 44; 48]
  /\ List.length cs = 2%nat /\ ~ In 45 s /\ ~ In 44 s /\ In 48 s /\ miscounted source_cfg 18.
Proof.
  destruct (live source_cfg source_life) as [[[cs s] k]|] eqn:E.
  2: { exfalso. assert (X : match live source_cfg source_life with None => true | _ => false end = false) by (vm_compute; reflexivity).
       rewrite E in X. discriminate. }
  exists cs, s, k. split; [eapply live_ok; exact E|].
  assert (X : match live source_cfg source_life with
              | Some (cs, s, k) => (pressed_keys k, List.length cs, existsb (N.eqb 45) s, existsb (N.eqb 44) s, existsb (N.eqb 48) s)
              | None => ([], 0%nat, true, true, true) end = ([45; 42; 35; 29; 18; 21; 16; 44; 48], 2%nat, false, false, true)).
  { vm_compute. reflexivity. }
  rewrite E in X. clear E.
  assert (Y : pressed_keys k = [45; 42; 35; 29; 18; 21; 16; 44; 48] /\ List.length cs = 2%nat /\ existsb (N.eqb 45) s = false
    /\ existsb (N.eqb 44) s = false /\ existsb (N.eqb 48) s = true) by (repeat split; congruence).
  destruct Y as (Y1 & Y2 & Y3 & Y4 & Y5).
  assert (G : forall x, existsb (N.eqb x) s = false -> ~ In x s).
  { intros x Hx Hin. apply not_true_iff_false in Hx. apply Hx. apply existsb_exists. exists x. split; [exact Hin|apply N.eqb_refl]. }
  repeat split; auto.
  - apply existsb_exists in Y5 as [y [Hy Ey]]. apply N.eqb_eq in Ey. now subst y.
  - exists (nth 0 (c_macros source_cfg) []), (nth 1 (nth 0 (c_macros source_cfg) []) (mkM MTimeout 0)).
    vm_compute. auto 10.
Qed.

Definition C63_all := (C63_pressed, C63_released, C63_file, C63_named).
Print Assumptions C63_all.
