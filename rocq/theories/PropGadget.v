(* C50: the reports of the USB gadget. *)
From Coq Require Import String.
From Verif Require Import Base Lib KeyTable Keys Types Device Gadget SpecGadget GadgetProofs.
Local Open Scope list_scope.
Local Open Scope N_scope.
Local Notation length := List.length.

(* The report sent for the event e after the events evs. *)
Definition sent (evs : list kevent) (e : kevent) : N * list N :=
  snd (gadget_send_key (gadget_run evs) (fst e) (if snd e then 1 else 0)%Z).
Lemma sent_run evs e : sent evs e = report (gadget_run (evs ++ [e])).
Proof. rewrite run_snoc. reflexivity. Qed.

(* A key that is no modifier and has a HID usage. *)
Local Opaque hid_table get_modifier plain_keys.
Definition plain (c : N) : Prop := get_modifier c = 0 /\ hid_table c <> 0.

(* The modifier byte: one bit for each of the eight modifiers, set exactly while
   it is held. *)
Theorem C50_mods : forall evs e, fst (sent evs e) < 256 /\
  forall i c, nth_error modifier_keys i = Some c ->
  N.testbit (fst (sent evs e)) (N.of_nat i) = held (evs ++ [e]) c.
Proof.
  intros evs e. rewrite sent_run. split; [apply mods_byte|]. intros i c. apply mods_exact.
Qed.

(* Six bytes; every one that is not 0 is the usage of a held key, and no two are
   equal. *)
Theorem C50_keys_sound : forall evs e, length (snd (sent evs e)) = 6%nat /\ NoDup (nz (snd (sent evs e))) /\
  forall x, In x (snd (sent evs e)) -> x <> 0 ->
  exists c, plain c /\ hid_table c = x /\ held (evs ++ [e]) c = true.
Proof.
  intros evs e. rewrite sent_run. destruct (keys_inv (evs ++ [e])) as [A B]. split; [exact A|]. split; [exact B|].
  intros x Hx Hn. destruct (keys_sound (evs ++ [e]) x) as (c & Hc & H1 & H2); [now apply nz_in|].
  exists c. split; [exact (proj1 (plain_spec c) Hc)|split; assumption].
Qed.

(* As long as no more than six keys have been held at any moment, the report
   lists exactly the held keys. *)
Theorem C50_keys_exact : forall evs e,
  (forall a b l, evs ++ [e] = a ++ b -> NoDup l -> Forall (fun c => plain c /\ held a c = true) l -> (length l <= 6)%nat) ->
  forall c, plain c -> In (hid_table c) (snd (sent evs e)) <-> held (evs ++ [e]) c = true.
Proof.
  intros evs e H c Hc. rewrite sent_run. apply keys_exact; [|exact (proj2 (plain_spec c) Hc)].
  intros a b E. apply (H a b (held_plain a) E); unfold held_plain.
  - apply NoDup_filter, plain_nodup.
  - apply Forall_forall. intros x Hx. apply filter_In in Hx as [Hx Hh]. split; [exact (proj1 (plain_spec x) Hx)|exact Hh].
Qed.

(* However many keys are held: a key in the report stays there until released. *)
Theorem C50_stays : forall evs e c more e', plain c -> In (hid_table c) (snd (sent evs e)) ->
  ~ In (c, false) (more ++ [e']) -> In (hid_table c) (snd (sent (evs ++ e :: more) e')).
Proof.
  intros evs e c more e' Hc. rewrite !sent_run. intros Hi Hn.
  assert (E : (evs ++ e :: more) ++ [e'] = (evs ++ [e]) ++ (more ++ [e'])) by (rewrite <- !app_assoc; reflexivity).
  refine (eq_ind_r (fun l => In _ (snd (report (gadget_run l)))) _ E).
  exact (key_stays (evs ++ [e]) c (more ++ [e']) (proj2 (plain_spec c) Hc) Hi Hn).
Qed.

Local Transparent hid_table get_modifier plain_keys.
(* Different keys have different usages, and the usages are those of the HID
   tables. *)
Theorem C50_usages : (forall c d, plain c -> plain d -> hid_table c = hid_table d -> c = d) /\
  forall n u, In (n, u) usage_rows -> plain (lookup_keycode n) /\ hid_table (lookup_keycode n) = u.
Proof.
  split; [intros c d Hc Hd; exact (hid_inj c d (proj2 (plain_spec c) Hc) (proj2 (plain_spec d) Hd))|].
  assert (H : forallb (fun '(n, u) => (get_modifier (lookup_keycode n) =? 0) && negb (hid_table (lookup_keycode n) =? 0)
                        && (hid_table (lookup_keycode n) =? u)) usage_rows = true) by (vm_compute; reflexivity).
  rewrite forallb_forall in H. intros n u Hi. specialize (H _ Hi). cbv beta iota in H.
  rewrite !andb_true_iff, negb_true_iff, N.eqb_neq, !N.eqb_eq in H. destruct H as [[A B] C].
  split; [split; assumption|exact C].
Qed.

(* With a seventh key the report is incomplete even later, when one of the six has
   been released: q w e r t y u pressed, q released: u is held, one byte is free,
   u is not reported. *)
Definition seven : list kevent := map (fun c => (c, true)) [16; 17; 18; 19; 20; 21; 22].
Theorem C50_seventh_refuted : exists evs e c, plain c /\ held (evs ++ [e]) c = true /\
  In 0 (snd (sent evs e)) /\ ~ In (hid_table c) (snd (sent evs e)).
Proof.
  exists seven, (16, false), 22. split; [split; [reflexivity|discriminate]|]. split; [reflexivity|].
  vm_compute. split; [now left|]. intuition discriminate.
Qed.

(* left shift, a, b pressed, a released: shift and b *)
Example C50_ex : sent [(42, true); (30, true); (48, true)] (30, false) = (2, [0; 5; 0; 0; 0; 0])
  /\ plain 48 /\ held [(42, true); (30, true); (48, true); (30, false)] 48 = true
  /\ forall a b l, [(42, true); (30, true); (48, true)] ++ [(30, false)] = a ++ b -> NoDup l ->
       Forall (fun c => plain c /\ held a c = true) l -> (length l <= 6)%nat.
Proof.
  split; [vm_compute; reflexivity|]. split; [split; [reflexivity|discriminate]|]. split; [reflexivity|].
  intros a b l E Hn Hf.
  assert (K : incl l [42; 30; 48]).
  { intros c Hc. rewrite Forall_forall in Hf. specialize (Hf c Hc) as [_ Hh].
    assert (Hin : In (c, true) a).
    { clear - Hh. induction a as [|[k p] a IH] using rev_ind; [discriminate|].
      rewrite held_snoc in Hh. rewrite in_app_iff. destruct (N.eqb_spec k c) as [->|]; [subst; right; now left|left; auto]. }
    assert (Hi : In (c, true) (a ++ b)) by (rewrite in_app_iff; auto). rewrite <- E in Hi.
    cbn in Hi. cbn. intuition congruence. }
  pose proof (NoDup_incl_length Hn K). cbn in *. lia.
Qed.
Definition C50_all := (C50_mods, C50_keys_sound, C50_keys_exact, C50_stays, C50_usages, C50_seventh_refuted, C50_ex).
Print Assumptions C50_all.
