(* C64: what the daemon writes, the virtual devices have declared. *)
From Coq Require Import String.
From Verif Require Import Base Lib Types KeyTable Keys Kbd Config Device Match Daemon SpecDaemon SpecMods SpecPass SpecSource SourceParse
  DaemonProofs Uinput SpecCaps CapsProofs PropDaemon.
From Coq Require Import List.
Import ListNotations.
Local Open Scope list_scope.
Local Open Scope N_scope.

Definition KEY_VOICECOMMAND : N := 0x246.

(* Whatever is plugged in, read, configured and asked for by clients: a key that is
   pressed at the host is one with a name. *)
Theorem C64_keys fuel wr l x : runs fuel wr l -> In (VKey x true) (d_out (lp_d l)) -> named_key x.
Proof.
  intros R H. apply runs_caps in R as [[_ R] _]. rewrite Forall_forall in R. exact (R _ H).
Qed.

Definition bitb (u : uout) : bool :=
  existsb (fun b => (fst b =? ie_type (snd u)) && (snd b =? ie_code (snd u))) (if fst u then pointer_bits else keyboard_bits).
Lemma bitb_ok u : bitb u = true <-> declared u.
Proof.
  unfold bitb, declared. rewrite existsb_exists. split.
  - intros [[a b] [H E]]. apply andb_true_iff in E as [E1 E2]. apply N.eqb_eq in E1, E2. cbn in E1, E2. now subst.
  - intros H. eexists. split; [exact H|]. cbn. now rewrite !N.eqb_refl.
Qed.
Definition unnamed : list N := [0; 196; 197; 198; 199].
Lemma key_declared c v : c < 256 -> declared (write_key_event c v) \/ write_key_event c v = (false, mkIev 1 KEY_VOICECOMMAND v)
  \/ (In c unnamed /\ ~ named_key c /\ write_key_event c v = (false, mkIev 1 c v)).
Proof.
  intros H.
  assert (A : forallb (fun i => bitb (write_key_event (N.of_nat i) 0) || (N.of_nat i =? 222) || (existsb (N.eqb (N.of_nat i)) unnamed && negb (namedb (N.of_nat i)))) (seq 0 256) = true)
    by (vm_compute; reflexivity).
  rewrite forallb_forall in A. specialize (A (N.to_nat c)). rewrite N2Nat.id in A.
  assert (B : In (N.to_nat c) (seq 0 256)) by (apply in_seq; lia). apply A in B.
  apply orb_true_iff in B as [B|B]; [apply orb_true_iff in B as [B|B]|].
  - left. apply bitb_ok in B. unfold declared, write_key_event in *. destruct (assoc button_codes c); exact B.
  - right. left. apply N.eqb_eq in B. now subst c.
  - right. right. apply andb_true_iff in B as [B1 B2]. apply existsb_exists in B1 as [y [B1 B3]]. apply N.eqb_eq in B3. subst y.
    split; [exact B1|]. apply negb_true_iff in B2. split.
    + intros (n & a & s & E). unfold namedb in B2. now rewrite E in B2.
    + unfold unnamed in B1. cbn in B1. decompose [or] B1; subst; try contradiction; reflexivity.
Qed.

(* Every event written is one the device it is written to has declared, apart from the
   key voicecommand and from releases of the few codes without a name. *)
Theorem C64_declared fuel wr l u : runs fuel wr l -> In u (host_events (lp_d l)) ->
  declared u \/ (fst u = false /\ ie_type (snd u) = 1 /\ ie_code (snd u) = KEY_VOICECOMMAND)
  \/ (fst u = false /\ ie_type (snd u) = 1 /\ In (ie_code (snd u)) unnamed /\ ie_value (snd u) = 0%Z).
Proof.
  intros R H. apply runs_caps in R as [[_ R] _]. rewrite Forall_forall in R.
  unfold host_events in H. apply in_flat_map in H as [v [Hv H]]. apply in_rev in Hv. apply R in Hv.
  destruct v as [c s|x y|x y|x y| | | | | |]; cbn [to_host] in H; try contradiction.
  - destruct H as [<-|[]].
    assert (L : c < 256) by (destruct s; [now apply named_low|exact Hv]).
    destruct (key_declared c (if s then 1 else 0)%Z L) as [D|[->|[B [Nn ->]]]]; [now left|right; left; repeat split|].
    destruct s; [contradiction|]. right. right. repeat split. exact B.
  - destruct H as [<-|[<-|[]]]; left; apply bitb_ok; reflexivity.
  - unfold uinput_move in H. apply in_app_iff in H as [H|H]; (destruct (_ =? 0)%Z; [contradiction|]; destruct H as [<-|[]]; left; apply bitb_ok; reflexivity).
  - unfold uinput_move_abs in H. apply in_app_iff in H as [H|H]; (destruct (_ =? 0)%Z; [contradiction|]; destruct H as [<-|[]]; left; apply bitb_ok; reflexivity).
Qed.

(* Buttons and motion go to the pointer, everything else to the keyboard, so the
   keyboard is never taken for a mouse. *)
Theorem C64_places fuel wr l u : runs fuel wr l -> In u (host_events (lp_d l)) ->
  if fst u then ie_type (snd u) = 2 \/ ie_type (snd u) = 3 \/ (ie_type (snd u) = 1 /\ In (ie_code (snd u)) buttons)
  else ie_type (snd u) = 1 /\ ~ In (ie_code (snd u)) buttons.
Proof.
  intros R H. apply runs_caps in R as [[_ R] _]. rewrite Forall_forall in R.
  unfold host_events in H. apply in_flat_map in H as [v [Hv H]]. apply in_rev in Hv. apply R in Hv.
  destruct v as [c s|x y|x y|x y| | | | | |]; cbn [to_host] in H; try contradiction.
  - destruct H as [<-|[]].
    assert (L : c < 256) by (destruct s; [now apply named_low|exact Hv]).
    assert (A : forallb (fun i => let u := write_key_event (N.of_nat i) 0 in Bool.eqb (fst u) (existsb (N.eqb (ie_code (snd u))) buttons)) (seq 0 256) = true)
      by (vm_compute; reflexivity).
    rewrite forallb_forall in A. specialize (A (N.to_nat c)). rewrite N2Nat.id in A.
    assert (B : In (N.to_nat c) (seq 0 256)) by (apply in_seq; lia). apply A in B. cbv zeta in B. apply Bool.eqb_prop in B.
    assert (E1 : forall z, fst (write_key_event c z) = fst (write_key_event c 0)) by (intros; unfold write_key_event; now destruct (assoc _ _)).
    assert (E2 : forall z, ie_code (snd (write_key_event c z)) = ie_code (snd (write_key_event c 0)) /\ ie_type (snd (write_key_event c z)) = 1)
      by (intros; unfold write_key_event; now destruct (assoc _ _)).
    rewrite E1. destruct (E2 (if s then 1 else 0)%Z) as [-> ->]. rewrite B.
    destruct (existsb (N.eqb (ie_code (snd (write_key_event c 0)))) buttons) eqn:Ex.
    + right. right. split; [reflexivity|]. apply existsb_exists in Ex as [y [Y1 Y2]]. apply N.eqb_eq in Y2. now rewrite Y2.
    + split; [reflexivity|]. intros X. apply not_true_iff_false in Ex. apply Ex, existsb_exists. eexists. split; [exact X|apply N.eqb_refl].
  - destruct H as [<-|[<-|[]]]; cbn; auto.
  - unfold uinput_move in H. apply in_app_iff in H as [H|H]; (destruct (_ =? 0)%Z; [contradiction|]; destruct H as [<-|[]]; cbn; auto).
  - unfold uinput_move_abs in H. apply in_app_iff in H as [H|H]; (destruct (_ =? 0)%Z; [contradiction|]; destruct H as [<-|[]]; cbn; auto).
Qed.

(* The virtual keyboard declares every key with a name, the nine lights the host may turn
   on (so that C62 can pass them on), and no motion. *)
Theorem C64_lights : (forall x, named_key x -> declared (false, mkIev 1 x 0)) /\ (forall i, declared (false, mkIev 17 i 0) <-> i <= 8)
  /\ (forall t c, In (t, c) keyboard_bits -> t = 1 \/ t = 17).
Proof.
  split; [|split].
  - intros x H. assert (L : x < 256) by now apply named_low.
    assert (A : forallb (fun i => bitb (false, mkIev 1 (N.of_nat i) 0) || negb (namedb (N.of_nat i))) (seq 0 256) = true) by (vm_compute; reflexivity).
    rewrite forallb_forall in A. specialize (A (N.to_nat x)). rewrite N2Nat.id in A.
    assert (B : In (N.to_nat x) (seq 0 256)) by (apply in_seq; lia). apply A in B. apply orb_true_iff in B as [B|B]; [now apply bitb_ok|].
    exfalso. apply negb_true_iff in B. destruct H as (n & a & s & E). unfold namedb in B. now rewrite E in B.
  - intros i. split.
    + unfold declared. cbn [fst snd ie_type ie_code]. intros H.
      assert (A : forallb (fun b => negb (fst b =? 17) || (snd b <=? 8)) keyboard_bits = true) by (vm_compute; reflexivity).
      rewrite forallb_forall in A. apply A in H. cbn in H. now apply N.leb_le in H.
    + intros H. assert (A : forallb (fun i => bitb (false, mkIev 17 (N.of_nat i) 0)) (seq 0 9) = true) by (vm_compute; reflexivity).
      rewrite forallb_forall in A. specialize (A (N.to_nat i)). rewrite N2Nat.id in A. apply bitb_ok, A, in_seq. lia.
  - intros t c H. assert (A : forallb (fun b => (fst b =? 1) || (fst b =? 17)) keyboard_bits = true) by (vm_compute; reflexivity).
    rewrite forallb_forall in A. apply A in H. cbn in H. apply orb_true_iff in H as [H|H]; apply N.eqb_eq in H; auto.
Qed.

(* ---- examples and exceptions -------------------------------------------------------- *)
Definition caps_text : str := Eval vm_compute in
  concat (map (fun l => bs l ++ [10]) ["[ids]"; "*"; "[main]"; "a = zoom"; "s = leftmouse"; "d = macro(x+197ms)"; "f = macro(H 3)"; "j = scrollup"]%string).
Definition a_mouse : device := mkDev true false (N.lor CAP_KEYBOARD CAP_MOUSE) false (bs "1234:9999") (mkAxes 1024 1024) None.
Definition caps_run (rs : list round) : res lstate := simulate 50 all_ok [caps_text] [a_keyboard; a_mouse] 1 rs.
Lemma caps_ex (rs : list round) (P : dstate -> bool) : Forall (fun r => r_added r = []) rs ->
  (match caps_run rs with Ok l => P (lp_d l) | _ => false end) = true -> exists l, runs 50 all_ok l /\ P (lp_d l) = true.
Proof.
  unfold caps_run. intros F H. destruct (simulate 50 all_ok [caps_text] [a_keyboard; a_mouse] 1 rs) as [l| | |] eqn:E; try discriminate H.
  exists l. split; [|exact H]. apply (simulate_runs 50 all_ok [caps_text] [a_keyboard; a_mouse] 1 rs l); auto.
  apply Forall_cons; [reflexivity|apply Forall_cons; [reflexivity|constructor]].
Qed.
Definition uout_eqb (a b : uout) : bool :=
  Bool.eqb (fst a) (fst b) && (ie_type (snd a) =? ie_type (snd b)) && (ie_code (snd a) =? ie_code (snd b)) && (ie_value (snd a) =? ie_value (snd b))%Z.
Fixpoint uouts_eqb (a b : list uout) : bool :=
  match a, b with [], [] => true | x :: a, y :: b => uout_eqb x y && uouts_eqb a b | _, _ => false end.
Lemma uouts_ok : forall a b, uouts_eqb a b = true -> a = b.
Proof.
  induction a as [|[p [t c v]] a IH]; intros [|[p' [t' c' v']] b] H; try discriminate H; [reflexivity|]. cbn [uouts_eqb] in H.
  apply andb_true_iff in H as [H1 H2]. apply IH in H2. unfold uout_eqb in H1. cbn in H1. rewrite !andb_true_iff in H1.
  destruct H1 as [[[H1 H3] H4] H5]. apply Bool.eqb_prop in H1. apply N.eqb_eq in H3, H4. apply Z.eqb_eq in H5. now subst.
Qed.
Definition K (c : N) (v : Z) : uout := (false, mkIev 1 c v).
Definition M (t c : N) (v : Z) : uout := (true, mkIev t c v).

(* a key for zoom, one for a button, one for a wheel, motion of the mouse *)
Example C64_example : exists l, runs 50 all_ok l /\
  host_events (lp_d l) = [K 0x174 1; K 0x174 0; M 1 0x110 1; M 1 0x110 0; M 2 8 1; M 2 6 0; M 2 0 5; M 3 1 300; M 1 0x111 1].
Proof.
  destruct (caps_ex [reading 1 5 [key 30 1; key 30 0; key 31 1; key 31 0; key 36 1; key 36 0] [REvent (mkIev 2 0 5); REvent (mkIev 3 1 300); key 0x111 1]]
    (fun d => uouts_eqb (host_events d) [K 0x174 1; K 0x174 0; M 1 0x110 1; M 1 0x110 0; M 2 8 1; M 2 6 0; M 2 0 5; M 3 1 300; M 1 0x111 1])) as (l & R & H).
  - no_added.
  - vm_compute. reflexivity.
  - exists l. split; [exact R|]. now apply uouts_ok in H.
Qed.

(* The key voicecommand is passed on, but the virtual keyboard has never declared it. *)
Theorem C64_voice_refuted : exists l u, runs 50 all_ok l /\ In u (host_events (lp_d l)) /\ ie_value (snd u) = 1%Z /\ ~ declared u.
Proof.
  destruct (caps_ex [reading 1 5 [key 0x246 1] []] (fun d => uouts_eqb (host_events d) [K 0x246 1])) as (l & R & H).
  - no_added.
  - vm_compute. reflexivity.
  - exists l, (K 0x246 1). apply uouts_ok in H. rewrite H. split; [exact R|]. split; [now left|]. split; [reflexivity|].
    intros D. apply bitb_ok in D. vm_compute in D. discriminate.
Qed.
(* Releasing a group of keys in a macro releases the pause in it (C27). *)
Theorem C64_pause_refuted : exists l u, runs 50 all_ok l /\ In u (host_events (lp_d l)) /\ ie_code (snd u) <> KEY_VOICECOMMAND /\ ~ declared u.
Proof.
  destruct (caps_ex [reading 1 5 [key 32 1] []] (fun d => uouts_eqb (host_events d) [K 45 1; K 45 0; K 197 0])) as (l & R & H).
  - no_added.
  - vm_compute. reflexivity.
  - exists l, (K 197 0). apply uouts_ok in H. rewrite H. split; [exact R|]. split; [right; right; now left|]. split; [discriminate|].
    intros D. apply bitb_ok in D. vm_compute in D. discriminate.
Qed.
(* A device reports that it is at the left edge; the pointer does not go there. *)
Theorem C64_edge_refuted : exists l, runs 50 all_ok l
  /\ lp_reads l = [(1%nat, REvent (mkIev 3 0 0)); (1%nat, REvent (mkIev 3 0 7))] /\ host_events (lp_d l) = [M 3 0 7].
Proof.
  assert (X : match caps_run [reading 1 5 [] [REvent (mkIev 3 0 7); REvent (mkIev 3 0 0)]] with
              | Ok l => match lp_reads l with
                        | [(a, REvent b); (c, REvent e)] =>
                            Nat.eqb a 1 && Nat.eqb c 1 && uouts_eqb [(true, b); (true, e)] [M 3 0 0; M 3 0 7] && uouts_eqb (host_events (lp_d l)) [M 3 0 7]
                        | _ => false end
              | _ => false end = true) by (vm_compute; reflexivity).
  unfold caps_run in X. destruct (simulate _ _ _ _ _ _) as [l| | |] eqn:E; try discriminate X.
  exists l. split.
  - eapply simulate_runs; [| |exact E]; [apply Forall_cons; [reflexivity|apply Forall_cons; [reflexivity|constructor]]|no_added].
  - clear E. destruct (lp_reads l) as [|[a [b| |]] [|[c [e| |]] [|]]]; try discriminate X.
    rewrite !andb_true_iff in X. destruct X as [[[X1 X2] X3] X4]. apply Nat.eqb_eq in X1, X2. apply uouts_ok in X3, X4. subst.
    split; [|exact X4]. injection X3 as -> ->. reflexivity.
Qed.

Definition C64_all := (C64_keys, C64_declared, C64_places, C64_lights, C64_voice_refuted, C64_pause_refuted, C64_edge_refuted).
Print Assumptions C64_all.
