(* C72: every request of a client is answered once; bind acts on every keyboard. *)
From Coq Require Import String ZArith Lia.
From Verif Require Import Base Lib Types Str Keys Kbd Config SpecText Match Device Daemon Identify SpecDaemon SpecIdentify SpecClient SpecBind
  DaemonProofs Hist WfHist PropText PropDaemon PropIdentify PropClient PropBound SpecServe ServeProofs.
Local Open Scope list_scope.
Local Open Scope N_scope.
Local Notation length := List.length.

(* In every run the answers sent so far are, one by one and in order, those to the requests
   received so far; nobody else is sent one. *)
Theorem C72_answers : forall fuel wr l, runs fuel wr l ->
  requests (lp_calls l) (map fst (answers (d_out (lp_d l)))).
Proof. intros fuel wr l H. exact (runs_settled fuel wr l H). Qed.
(* the requests among the calls are determined *)
Theorem C72_determined : forall calls cons cons', requests calls cons -> requests calls cons' -> cons = cons'.
Proof.
  intros calls cons cons' H. revert cons'.
  induction H as [|d ev ts t calls con cons Ho H IH|d ev ts t calls cons Hn H IH]; intros cons' H'; inversion H'; subst; auto.
  - f_equal; [eapply owed_con; eauto|auto].
  - exfalso. match goal with X : forall _, ~ owed _ _ |- _ => eapply X; eauto end.
  - exfalso. eapply Hn; eauto.
Qed.

(* A request that exceeds a limit or is of no known kind changes nothing and is answered with
   failure. *)
Theorem C72_refused : forall wr con m texts grabs d, ~ allowed m \/ i_type m = IOther ->
  exists d', handle_client wr con m texts grabs d = Ok d' /\ d_out d' = VReply con false :: d_out d /\ set_d_out (d_out d) d' = d.
Proof.
  intros wr con m texts grabs d H. unfold handle_client. exists (vemit (VReply con false) d).
  split; [|split; [reflexivity|now destruct d]].
  destruct (4096 <=? i_sz m) eqn:E1; [reflexivity|]. destruct (1000000 <? i_timeout m) eqn:E2; [reflexivity|].
  destruct H as [H| ->]; [|reflexivity]. exfalso. apply H. now apply limits.
Qed.

(* Bind: the expression is applied to every keyboard, the answer is success if one of them
   takes it, and nothing else changes; no key is pressed or released, no layer message is
   sent. *)
Theorem C72_bind : forall wr con m text texts grabs d d',
  i_type m = IBind -> carries m text -> i_timeout m <= 1000000 -> handle_client wr con m texts grabs d = Ok d' ->
  exists rs ok, Forall2 (fun k x => kbd_eval k text = Ok x) (d_ents d) rs /\
    d_ents d' = map fst rs /\ d_out d' = VReply con ok :: d_out d /\ (ok = true <-> exists x, In x rs /\ snd x = true) /\
    d_gen d' = d_gen d /\ d_ks d' = d_ks d /\ d_active d' = d_active d /\ d_devs d' = d_devs d /\ d_lst d' = d_lst d /\
    d_timeout d' = d_timeout d /\ d_clock d' = d_clock d.
Proof.
  intros wr con m text texts grabs d d' Ht Hc Hl H. apply message_text in Hc as (Hs & rest & Hd & Hx).
  unfold handle_client in H. rewrite Hs, Ht, Hd, Hx in H. apply N.ltb_ge in Hl. rewrite Hl in H.
  destruct (eval_all _ _) as [[ks ok]| | |] eqn:E; cbn [bind] in H; try discriminate H. apply Ok_inj in H. subst d'.
  apply eval_all_each in E as (rs & F & A & B). cbn [fst snd] in A, B. subst.
  exists rs, (existsb snd rs). split; [exact F|]. split; [reflexivity|]. split; [reflexivity|]. split; [|repeat split].
  rewrite existsb_exists. reflexivity.
Qed.
(* it fails to be defined only where one of the keyboards does *)
Theorem C72_bind_defined : forall wr con m text texts grabs d,
  i_type m = IBind -> carries m text ->
  (forall k, In k (d_ents d) -> exists x, kbd_eval k text = Ok x) ->
  exists d', handle_client wr con m texts grabs d = Ok d'.
Proof.
  intros wr con m text texts grabs d Ht Hc H. apply message_text in Hc as (Hs & rest & Hd & Hx).
  unfold handle_client. rewrite Hs, Ht, Hd, Hx. destruct (1000000 <? i_timeout m); [eauto|].
  destruct (eval_all_total text (d_ents d) H) as [[ks ok] ->]. cbn [bind]. eauto.
Qed.
(* If the answer is failure, no binding of any keyboard has changed, and nothing else of it but
   spare entries of the tables of descriptors, macros and commands. *)
Theorem C72_bind_failed : forall wr con m text texts grabs d d',
  i_type m = IBind -> carries m text -> i_timeout m <= 1000000 -> handle_client wr con m texts grabs d = Ok d' ->
  In (VReply con false) (firstn 1 (d_out d')) ->
  Forall2 (fun k k' => k' = set_k_cfg (k_cfg k') k /\ c_layers (k_cfg k') = c_layers (k_cfg k) /\
                       tables_extended (k_cfg k) (k_cfg k') /\ rest_same (k_cfg k) (k_cfg k')) (d_ents d) (d_ents d').
Proof.
  intros wr con m text texts grabs d d' Ht Hc Hl H Hf.
  destruct (C72_bind _ _ _ _ _ _ _ _ Ht Hc Hl H) as (rs & ok & F & E & Eo & Hok & _). rewrite Eo in Hf.
  cbn [firstn In] in Hf. destruct Hf as [Hf|[]]. injection Hf as ->. rewrite E.
  assert (N : forall x, In x rs -> snd x = false).
  { intros x Hx. destruct (snd x) eqn:Es; [|reflexivity]. symmetry. apply Hok. eauto. }
  clear -F N. induction F as [|k x ks rs Hk F IH]; cbn [map]; constructor.
  - destruct x as [k' ok]. pose proof (N (k', ok) (or_introl eq_refl)) as X. cbn [snd] in X. subst ok. now apply (C31_fail k text).
  - apply IH. intros; apply N; now right.
Qed.
(* reset gives every keyboard the bindings of its file back *)
Theorem C72_reset : forall fuel wr G texts l con m txt grabs d' fs, lives fuel wr G texts l ->
  accepted (loaded texts (lp_calls l)) fs ->
  i_type m = IBind -> carries m (bs "reset") -> i_timeout m <= 1000000 -> handle_client wr con m txt grabs (lp_d l) = Ok d' ->
  map k_cfg (d_ents d') = map snd fs /\ Forall2 (fun k k' => k' = set_k_cfg (k_orig k) k) (d_ents (lp_d l)) (d_ents d') /\
  exists ok, d_out d' = VReply con ok :: d_out (lp_d l) /\ (ok = true <-> fs <> []).
Proof.
  intros fuel wr G texts l con m txt grabs d' fs L Ha Ht Hc Hl H.
  destruct (C66_files _ _ _ _ _ L) as (fs' & Ha' & Eo). assert (fs' = fs) as -> by (eapply accepted_unique; eauto).
  destruct (C72_bind _ _ _ _ _ _ _ _ Ht Hc Hl H) as (rs & ok & F & E & Eout & Hok & _).
  assert (X : Forall2 (fun k x => x = (set_k_cfg (k_orig k) k, true)) (d_ents (lp_d l)) rs).
  { clear -F. induction F as [|k x ks rs Hk F IH]; constructor; auto. unfold kbd_eval in Hk.
    change (str_eqb (bs "reset") (bs "reset")) with true in Hk. cbn iota in Hk. apply Ok_inj in Hk. now subst. }
  rewrite E. split; [|split].
  - rewrite <- Eo. clear -X. induction X as [|k x ks rs Hk F IH]; cbn [map]; [reflexivity|]. subst x. cbn [fst]. f_equal. exact IH.
  - clear -X. induction X as [|k x ks rs Hk F IH]; cbn [map]; constructor; auto. now subst x.
  - exists ok. split; [exact Eout|]. rewrite Hok. split.
    + intros (x & Hx & _) ->. destruct (d_ents (lp_d l)); [|discriminate Eo]. inversion X; subst. destruct Hx.
    + intros Hn. destruct X as [|k x ks rs Hk X].
      * destruct fs; [congruence|discriminate Eo].
      * exists x. subst x. split; [now left|reflexivity].
Qed.

(* "success" does not mean that every keyboard took the expression: two files, only one of
   which has the layer *)
Definition saying (t : itype) (text : str) : imsg := mkMsg t 0 (text ++ repeat 0 (4096 - length text)) (N.of_nat (length text)).
Definition with_layer : str := Eval vm_compute in concat (map (fun l => bs l ++ [10]) ["[ids]"; "046d:c52b"; "[main]"; "a = c"; "[nav]"; "b = d"]%string).
Definition said (l : lstate) : list (nat * bool) := answers (d_out (lp_d l)).
Definition saidb (l : lstate) (a : list (nat * bool)) : bool :=
  Nat.eqb (length (said l)) (length a) &&
  forallb (fun x => Nat.eqb (fst (fst x)) (fst (snd x)) && Bool.eqb (snd (fst x)) (snd (snd x))) (combine (said l) a).
Lemma saidb_ok l a : saidb l a = true -> said l = a.
Proof.
  unfold saidb. intros H. apply Bool.andb_true_iff in H as [A B]. apply Nat.eqb_eq in A. revert a A B.
  induction (said l) as [|[c o] r IH]; intros [|[c' o'] a] A B; cbn [length] in A; try discriminate A; [reflexivity|].
  cbn [combine forallb fst snd] in B. apply Bool.andb_true_iff in B as [B1 B2]. apply Bool.andb_true_iff in B1 as [B0 B1].
  apply Nat.eqb_eq in B0. apply Bool.eqb_prop in B1. subst. f_equal. apply IH; [now injection A|exact B2].
Qed.
(* the key of layer i of keyboard n is bound to the key code c *)
Definition keyb (l : lstate) (n i : nat) (key c : N) : bool :=
  match nth_error (d_ents (lp_d l)) n with
  | Some k => match ly_keymap (nth i (c_layers (k_cfg k)) zero_layer) key with DKey code 0 => code =? c | _ => false end
  | None => false
  end.
(* A binding in a layer only one file has, one in a layer that does not exist, an unknown
   request, one with too long a pause, a listener, and reset. *)
Definition talk : list (list node * list (imsg * list str)) :=
  [([], [(saying IBind (bs "nav.b = e"), [])]); ([], [(saying IBind (bs "none.b = e"), [])]);
   ([], [(saying IOther [], []); (mkMsg IInput 1000001 [] 0, []); (saying IListen [], [])])].
Example C72_ex : exists l l', lives 50 all_ok (fun b => b = true) [everything; with_layer] l /\
  lives 50 all_ok (fun b => b = true) [everything; with_layer] l' /\
  said l = [(7, false); (7, false); (7, false); (7, true)]%nat /\ keyb l 0 6 48 18 = true /\
  said l' = (7, true)%nat :: said l /\ keyb l' 0 6 48 32 = true.
Proof.
  destruct (bound_ex (fun b => b = true) true [everything; with_layer] [a_node] talk
    (fun l => saidb l [(7, false); (7, false); (7, false); (7, true)]%nat && keyb l 0 6 48 18)) as (l & L & H);
    try reflexivity; [vm_compute; reflexivity..|].
  destruct (bound_ex (fun b => b = true) true [everything; with_layer] [a_node] (talk ++ [([], [(saying IBind (bs "reset"), [])])])
    (fun l => saidb l [(7, true); (7, false); (7, false); (7, false); (7, true)]%nat && keyb l 0 6 48 32)) as (l' & L' & H');
    try reflexivity; [vm_compute; reflexivity..|].
  exists l, l'. apply Bool.andb_true_iff in H as [A B], H' as [A' B']. apply saidb_ok in A, A'.
  rewrite A, A'. split; [exact L|]. split; [exact L'|]. auto.
Qed.
Example C72_ex_carries : carries (saying IBind (bs "reset")) (bs "reset") /\ i_timeout (saying IBind (bs "reset")) <= 1000000.
Proof.
  split; [|discriminate]. exists (repeat 0 (4096 - length (bs "reset"))). cbn [saying i_data i_sz].
  split; [reflexivity|]. split; [reflexivity|]. split; [vm_compute; reflexivity|]. split; [reflexivity|].
  vm_compute. intuition discriminate.
Qed.
Theorem C72_some_refuted : exists l l', lives 50 all_ok (fun b => b = true) [everything; with_layer] l /\
  loop_round 50 all_ok (finding 2 3 true [] [(saying IBind (bs "nav.b = e"), [])]) l = Ok l' /\
  said l' = (7, true)%nat :: said l /\
  exists k k', In k (d_ents (lp_d l)) /\ kbd_eval k (bs "nav.b = e") = Ok (k', false).
Proof.
  destruct (bound_ex (fun b => b = true) true [everything; with_layer] [a_node] []
    (fun l => match loop_round 50 all_ok (finding 2 3 true [] [(saying IBind (bs "nav.b = e"), [])]) l with
              | Ok l' => saidb l' [(7, true)]%nat && saidb l [] | _ => false end &&
              existsb (fun k => match kbd_eval k (bs "nav.b = e") with Ok (_, b) => negb b | _ => false end) (d_ents (lp_d l))))
    as (l & L & H); try reflexivity; [vm_compute; reflexivity..|].
  exists l. revert H. destruct (loop_round _ _ _ _) as [l'| | |] eqn:E; cbn [andb]; try discriminate.
  intros H. apply Bool.andb_true_iff in H as [H1 H2]. apply Bool.andb_true_iff in H1 as [A B]. apply saidb_ok in A, B.
  exists l'. split; [exact L|]. split; [reflexivity|]. split; [now rewrite A, B|].
  apply existsb_exists in H2 as (k & Hk & X). destruct (kbd_eval k _) as [[k' b]| | |] eqn:Ek; try discriminate X.
  exists k, k'. split; [exact Hk|]. destruct b; [discriminate X|exact Ek].
Qed.

Definition C72_all := (C72_answers, C72_determined, C72_refused, C72_bind, C72_bind_defined, C72_bind_failed, C72_reset, C72_some_refuted).
Print Assumptions C72_all.
