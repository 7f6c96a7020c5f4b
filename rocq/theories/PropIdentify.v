(* C65: what keyd takes an event node for, and the id it gives to it. *)
From Coq Require Import String ZArith Lia ZifyN ZifyNat ZifyBool.
From Verif Require Import Base Lib Types Str Config SpecText MatchProofs Match Device Uinput Daemon Identify SpecDaemon SpecIdentify
  IdentifyProofs BoundProofs Hist.
Local Open Scope list_scope.
Local Open Scope N_scope.
Local Notation length := List.length.

(* ---- keyboards and pointers --------------------------------------------------------------- *)
Theorem C65_kind : forall n dv, device_init n = Taken dv ->
  (N.testbit (dv_caps dv) 2 = true <-> keyboard_like n) /\ (N.testbit (dv_caps dv) 0 = true <-> pointer_like n)
  /\ (N.testbit (dv_caps dv) 1 = true <-> absolute n)
  /\ (dv_virtual dv = true <-> exists p, nd_id n = Some (0x0FAC, p))
  /\ dv_open dv = true /\ dv_grabbed dv = false /\ dv_data dv = None.
Proof.
  intros n dv H. apply taken_shape in H as (keys & rel & abs & name & v & p & ax & Ho & Ek & Er & Ea & En & Ei & H). cbv zeta in H.
  destruct H as (X & Y & ->). cbn [dv_caps dv_virtual dv_open dv_grabbed dv_data].
  rewrite (keyboard_bit n keys Ek), (pointer_bit n rel abs Er Ea), (abs_bit n abs Ea).
  set (k := forallb keys mask_keys || keys BRIGHTNESSUP || keys VOLUMEUP). set (a := negb (abs =? 0)). set (m := negb (rel =? 0) || a).
  clearbody m. clearbody a k.
  split; [destruct m, a, k; now vm_compute|]. split; [destruct m, a, k; now vm_compute|]. split; [destruct m, a, k; now vm_compute|].
  split; [|auto]. rewrite Ei. rewrite N.eqb_eq. split; [intros ->; eauto|intros [q [= -> _]]; reflexivity].
Qed.
(* Taken are the nodes that answer every question and are keyboards or pointers. *)
Theorem C65_taken : forall n, (exists dv, device_init n = Taken dv) <-> answers n /\ (keyboard_like n \/ pointer_like n).
Proof.
  intros n. split.
  - intros [dv H]. assert (K := C65_kind n dv H). apply taken_shape in H as (keys & rel & abs & name & v & p & ax & Ho & Ek & Er & Ea & En & Ei & H). cbv zeta in H.
    destruct H as (X & Y & _). split.
    + unfold answers. rewrite (abs_bit n abs Ea), Ho, Ek, Er, Ea, En, Ei. repeat split; try discriminate; now apply X.
    + rewrite (keyboard_bit n keys Ek), (pointer_bit n rel abs Er Ea). apply Bool.orb_true_iff in Y. tauto.
  - intros [(Ho & Ek & Er & Ea & En & Hx & Ei) Y].
    destruct (nd_keys n) as [keys|] eqn:Ek'; [clear Ek|easy]. destruct (nd_rel n) as [rel|] eqn:Er'; [clear Er|easy].
    destruct (nd_abs n) as [abs|] eqn:Ea'; [clear Ea|easy]. destruct (nd_name n) as [name|] eqn:En'; [clear En|easy].
    destruct (nd_id n) as [[v p]|] eqn:Ei'; [clear Ei|easy].
    rewrite (keyboard_bit n keys Ek'), (pointer_bit n rel abs Er' Ea') in Y. rewrite (abs_bit n abs Ea') in Hx.
    unfold device_init, resolve_device_capabilities. rewrite Ho, En', Ek', Er', Ea', Ei'.
    set (idt := hex 4 v ++ _). set (k := forallb keys mask_keys || keys BRIGHTNESSUP || keys VOLUMEUP) in *. set (a := negb (abs =? 0)) in *.
    set (m := negb (rel =? 0) || a) in *. clearbody idt k.
    assert (A : a = true -> m = true) by (unfold m; intros ->; apply Bool.orb_true_r). clearbody m. clearbody a.
    destruct a.
    + destruct (Hx eq_refl) as [H1 H2]. rewrite (A eq_refl). destruct (nd_x n), (nd_y n), k; try easy; cbn; eauto.
    + destruct m, k; cbn; eauto. destruct Y; discriminate.
Qed.
(* A node that answers every question and is not taken is closed again. *)
Theorem C65_closed : forall n closed, answers n -> device_init n = NotTaken closed -> closed = true.
Proof.
  intros n closed (Ho & Ek & Er & Ea & En & Hx & Ei) H.
  destruct (nd_keys n) as [keys|] eqn:Ek'; [clear Ek|easy]. destruct (nd_rel n) as [rel|] eqn:Er'; [clear Er|easy].
  destruct (nd_abs n) as [abs|] eqn:Ea'; [clear Ea|easy]. destruct (nd_name n) as [name|] eqn:En'; [clear En|easy].
  destruct (nd_id n) as [[v p]|] eqn:Ei'; [clear Ei|easy]. rewrite (abs_bit n abs Ea') in Hx.
  unfold device_init, resolve_device_capabilities in H. rewrite Ho, En', Ek', Er', Ea', Ei' in H. revert H.
  set (idt := hex 4 v ++ _). set (k := forallb keys mask_keys || keys BRIGHTNESSUP || keys VOLUMEUP) in *. set (a := negb (abs =? 0)) in *.
  set (m := negb (rel =? 0) || a) in *. clearbody idt k m a.
  destruct a; [destruct (Hx eq_refl) as [H1 H2]; destruct m, k, (nd_x n), (nd_y n); try easy; cbn; congruence|].
  destruct m, k; cbn; congruence.
Qed.

(* ---- the id ---------------------------------------------------------------------------------- *)
(* vendor, product and a number computed from the traits of the node, in hexadecimal *)
Theorem C65_id : forall n dv, taken_from n dv -> exists v p l sv sp su,
  nd_id n = Some (v, p) /\ traits n l /\ field 4 v sv /\ field 4 p sp /\ field 8 (uid_of l) su
  /\ dv_id dv = sv ++ [58] ++ sp ++ [58] ++ su.
Proof.
  intros n dv [R H]. apply taken_shape in H as (keys & rel & abs & name & v & p & ax & Ho & Ek & Er & Ea & En & Ei & H). cbv zeta in H.
  destruct H as (_ & _ & ->). cbn [dv_id]. destruct R as (_ & _ & Rn & Rp & Ri). destruct (Ri _ _ Ei) as [Hv Hp]. specialize (Rn _ En).
  assert (T : Forall (fun c => c < 256) (told_name n name)).
  { assert (Q : forall s, Forall (fun c => 1 <= c < 256) s -> Forall (fun c => c < 256) s) by (intros s; apply Forall_impl; lia).
    unfold told_name. destruct (Nat.ltb _ _); [now apply Q|]. apply Forall_app. split; apply Q.
    - rewrite <- (firstn_skipn 64 name) in Rn. now apply Forall_app in Rn.
    - rewrite <- (firstn_skipn 255 (nd_path n)) in Rp. now apply Forall_app in Rp. }
  rewrite (uid_ok (keys_number keys) abs rel (told_name n name) (keys_le keys) T).
  eexists v, p, _, (hex 4 v), (hex 4 p), _. split; [exact Ei|]. split; [econstructor; eauto|].
  split; [apply hex_field; exact Hv|]. split; [apply hex_field; exact Hp|]. split; [|reflexivity].
  apply hex_field. apply uid_lt.
Qed.
(* A rule vvvv:pppp applies to exactly the devices with that vendor and product. *)
Theorem C65_rule : forall n dv v p sv sp vendor product, taken_from n dv -> nd_id n = Some (vendor, product) ->
  field 4 v sv -> field 4 p sp -> (starts (sv ++ [58] ++ sp) (dv_id dv) <-> vendor = v /\ product = p).
Proof.
  intros n dv v p sv sp vendor product T Ei Fv Fp.
  destruct (C65_id n dv T) as (v' & p' & l & sv' & sp' & su & Ei' & _ & Fv' & Fp' & _ & ->).
  rewrite Ei in Ei'. injection Ei' as <- <-. split.
  - intros [r E]. rewrite <- !app_assoc in E.
    assert (A : sv' = sv /\ [58] ++ sp' ++ [58] ++ su = [58] ++ sp ++ r).
    { apply app_same in E; [exact E|]. now rewrite (proj2 Fv), (proj2 Fv'). }
    destruct A as [-> E2]. injection E2 as E2.
    assert (A : sp' = sp).
    { apply app_same in E2; [exact (proj1 E2)|]. now rewrite (proj2 Fp), (proj2 Fp'). }
    subst sp'. split; eapply field_same; eauto.
  - intros [-> ->]. rewrite (field_inj _ _ _ _ Fv' Fv), (field_inj _ _ _ _ Fp' Fp). exists ([58] ++ su). now rewrite <- !app_assoc.
Qed.
(* Rules that are longer than an id or contain anything else than digits, a to f and colons
   apply to no device. *)
Theorem C65_foreign : forall n dv x, taken_from n dv ->
  (18 < length x)%nat \/ (exists c, In c x /\ ~ (48 <= c <= 58 \/ 97 <= c <= 102)) -> ~ starts x (dv_id dv).
Proof.
  intros n dv x T H [r E]. destruct (C65_id n dv T) as (v & p & l & sv & sp & su & _ & _ & Fv & Fp & Fu & Ed). rewrite Ed in E.
  destruct H as [H|[c [Hc N]]].
  - apply (f_equal (@length N)) in E. rewrite !app_length in E. destruct Fv as [_ L1], Fp as [_ L2], Fu as [_ L3]. cbn [length] in E. lia.
  - assert (Hi : In c (sv ++ [58] ++ sp ++ [58] ++ su)) by (rewrite E; apply in_app_iff; now left).
    destruct Fv as [Fv _], Fp as [Fp _], Fu as [Fu _]. apply numeral_chars in Fv, Fp, Fu. rewrite Forall_forall in Fv, Fp, Fu.
    assert (Q : hexc c -> False) by (unfold hexc; lia).
    rewrite !in_app_iff in Hi. destruct Hi as [Hi|[[<-|[]]|[Hi|[[<-|[]]|Hi]]]]; auto; lia.
Qed.
(* A configuration whose ids section has the one line vvvv:pppp is for exactly the devices
   with that vendor and product. *)
Theorem C65_config : forall text c secs n dv v p sv sp vendor product,
  config_parse text = Ok (Some c) -> sections_of text secs -> id_text secs = [sv ++ [58] ++ sp] ->
  field 4 v sv -> field 4 p sp -> taken_from n dv -> nd_id n = Some (vendor, product) ->
  (config_check_match c (dv_id dv) (device_flags (dv_caps dv)) <> 0 <-> vendor = v /\ product = p).
Proof.
  intros text c secs n dv v p sv sp vendor product Hp Hs Hi Fv Fp T Ei.
  assert (R0 : rule_of (sv ++ [58] ++ sp) (Some (Only true true (sv ++ [58] ++ sp)))).
  { destruct Fv as [Fv L1], Fp as [_ L2]. apply numeral_chars in Fv. destruct sv as [|a sv]; [discriminate L1|]. apply Forall_inv in Fv. unfold hexc in Fv.
    apply rule_both.
    - intros E. injection E as E _. lia.
    - intros [r E]. injection E as E _. lia.
    - intros [r E]. injection E as E _. lia.
    - intros [r E]. injection E as E _. lia.
    - rewrite !app_length, L1, L2. cbn [length]. lia. }
  assert (R : rules (id_text secs) [Only true true (sv ++ [58] ++ sp)]) by (rewrite Hi; constructor; [exact R0|constructor]).
  assert (M := parse_rules text secs c _ Hp Hs R).
  set (sd := SpecText.mkDev (dv_id dv) (mouse_caps (dv_caps dv)) (N.testbit (dv_caps dv) 2)).
  assert (C := match_ok c _ sd M). cbv zeta in C.
  replace (flags_of sd) with (device_flags (dv_caps dv)) in C by (apply (caps_flags (dv_id dv))).
  change (SpecText.dv_id sd) with (dv_id dv) in C.
  rewrite <- (C65_rule n dv v p sv sp vendor product T Ei Fv Fp).
  assert (K : true && dv_mouse sd || true && dv_keyboard sd = true).
  { cbn [sd dv_mouse dv_keyboard andb]. destruct T as [_ T]. destruct (C65_kind n dv T) as (K1 & K2 & _).
    assert (Z := proj1 (C65_taken n) (ex_intro _ dv T)). destruct Z as [_ [Z|Z]].
    - rewrite (proj2 K1 Z). apply Bool.orb_true_r.
    - unfold mouse_caps. now rewrite (proj2 K2 Z). }
  destruct C as (C0 & C2 & C1). split.
  - intros Q. destruct C0 as [C0|[C0|C0]]; [contradiction| |].
    + apply C1 in C0 as [[Z|[]] _]. discriminate Z.
    + apply C2 in C0. inversion C0 as [r rs yes A|r rs yes A B]; [exact (proj1 A)|inversion B].
  - intros S. assert (X : explicit [Only true true (sv ++ [58] ++ sp)] sd) by (apply listed_here; split; [exact S|split; [exact K|reflexivity]]).
    apply C2 in X. rewrite X. discriminate.
Qed.
(* Nodes with the same vendor, product and traits get the same id ... *)
Theorem C65_same : forall n dv n' dv' l, taken_from n dv -> taken_from n' dv' -> nd_id n = nd_id n' ->
  traits n l -> traits n' l -> dv_id dv = dv_id dv'.
Proof.
  intros n dv n' dv' l T T' E H H'.
  destruct (C65_id n dv T) as (v & p & m & sv & sp & su & E1 & M & Fv & Fp & Fu & ->).
  destruct (C65_id n' dv' T') as (v' & p' & m' & sv' & sp' & su' & E1' & M' & Fv' & Fp' & Fu' & ->).
  rewrite E1, E1' in E. injection E as <- <-.
  rewrite (traits_unique n _ _ H M) in *. rewrite (traits_unique n' _ _ H' M') in *.
  rewrite (field_inj _ _ _ _ Fv Fv'), (field_inj _ _ _ _ Fp Fp'), (field_inj _ _ _ _ Fu Fu'). reflexivity.
Qed.
(* ... and nodes that differ in one of the traits get different ids. *)
Theorem C65_apart : forall n dv n' dv' a x y b, taken_from n dv -> taken_from n' dv' ->
  traits n (a ++ [x] ++ b) -> traits n' (a ++ [y] ++ b) -> x <> y -> dv_id dv <> dv_id dv'.
Proof.
  intros n dv n' dv' a x y b T T' H H' N E.
  destruct (C65_id n dv T) as (v & p & m & sv & sp & su & E1 & M & Fv & Fp & Fu & Ed).
  destruct (C65_id n' dv' T') as (v' & p' & m' & sv' & sp' & su' & E1' & M' & Fv' & Fp' & Fu' & Ed').
  rewrite Ed, Ed' in E.
  assert (S : su = su').
  { apply app_same in E as [_ E]; [|now rewrite (proj2 Fv), (proj2 Fv')]. injection E as E.
    apply app_same in E as [_ E]; [|now rewrite (proj2 Fp), (proj2 Fp')]. now injection E as E. }
  subst su'. assert (U := field_same _ _ _ _ Fu Fu').
  rewrite <- (traits_unique n _ _ H M), <- (traits_unique n' _ _ H' M') in U.
  revert U. apply uid_differs; [exact N|].
  assert (B1 := traits_small n _ (proj1 T) H). assert (B2 := traits_small n' _ (proj1 T') H').
  apply Forall_app in B1 as [_ B1]. apply Forall_app in B2 as [_ B2]. cbn [app] in B1, B2. apply Forall_inv in B1, B2. lia.
Qed.

(* ---- the daemon's own devices --------------------------------------------------------------------- *)
(* The virtual keyboard and the virtual pointer are taken for a keyboard and for a pointer
   and recognised as virtual. *)
Theorem C65_own : forall path, exists k p,
  device_init (own_keyboard path) = Taken k /\ dv_virtual k = true /\ N.testbit (dv_caps k) 2 = true /\ starts (bs "0fac:0ade:") (dv_id k)
  /\ device_init (own_pointer path) = Taken p /\ dv_virtual p = true /\ N.testbit (dv_caps p) 1 = true /\ starts (bs "0fac:1ade:") (dv_id p).
Proof.
  intros path. eexists. eexists.
  split; [vm_compute; reflexivity|]. split; [reflexivity|]. split; [reflexivity|]. split; [eexists; reflexivity|].
  split; [vm_compute; reflexivity|]. split; [reflexivity|]. split; [reflexivity|]. eexists; reflexivity.
Qed.
(* A device with the vendor of the virtual devices never gets a configuration and is never
   grabbed, whatever the configuration files say. *)
Theorem C65_loop_free : forall fuel wr G texts l dv n p, lives fuel wr G texts l -> In dv (d_devs (lp_d l)) -> found_at n dv ->
  nd_id n = Some (0x0FAC, p) -> dv_data dv = None /\ dv_grabbed dv = false.
Proof.
  intros fuel wr G texts l dv n p H Hi (dv0 & [_ T] & _ & _ & V & _) Ei. apply runs_bound in H as [_ B].
  rewrite Forall_forall in B. apply B in Hi as [_ M]. rewrite V in M.
  destruct (C65_kind n dv0 T) as (_ & _ & _ & K & _). rewrite (proj2 K (ex_intro _ p Ei)) in M. exact M.
Qed.

(* ---- examples ----------------------------------------------------------------------------------------- *)
Definition in_rangeb (n : node) : bool :=
  match nd_rel n with Some r => r <? 256 | None => true end && match nd_abs n with Some a => a <? 256 | None => true end
  && match nd_name n with Some s => forallb (fun c => (1 <=? c) && (c <? 256)) s | None => true end
  && forallb (fun c => (1 <=? c) && (c <? 256)) (nd_path n)
  && match nd_id n with Some (v, p) => (v <? 65536) && (p <? 65536) | None => true end.
Lemma in_rangeb_ok n : in_rangeb n = true -> in_range n.
Proof.
  assert (Q : forall s, forallb (fun c => (1 <=? c) && (c <? 256)) s = true -> Forall (fun c => 1 <= c < 256) s).
  { intros s H. apply Forall_forall. intros c Hc. rewrite forallb_forall in H. specialize (H c Hc). lia. }
  unfold in_rangeb. rewrite !Bool.andb_true_iff. intros [[[[A B] C] D] E]. repeat split.
  - intros r Hr. rewrite Hr in A. lia.
  - intros r Hr. rewrite Hr in B. lia.
  - intros s Hs. rewrite Hs in C. now apply Q.
  - now apply Q.
  - intros. rewrite H in E. lia.
  - intros. rewrite H in E. lia.
Qed.
Definition dev_of (n : node) : device :=
  match device_init n with Taken dv => dv | NotTaken _ => mkDev false false 0 false [] (mkAxes 0 0) None end.
Definition takenb (n : node) : bool := in_rangeb n && match device_init n with Taken _ => true | NotTaken _ => false end.
Lemma takenb_ok n : takenb n = true -> taken_from n (dev_of n).
Proof.
  unfold takenb, dev_of, taken_from. intros H. apply Bool.andb_true_iff in H as [A B]. split; [now apply in_rangeb_ok|].
  destruct (device_init n); [reflexivity|discriminate B].
Qed.
(* a keyboard with keys 1 to 100 and the name given *)
Definition keyboard_node (name : str) (vendor product : N) : node :=
  mkNode (bs "/dev/input/event3") true (Some (fun c => (1 <=? c) && (c <=? 100))) (Some 0) (Some 0) (Some name) None None (Some (vendor, product)).
(* a mouse: five buttons, two relative axes *)
Definition mouse_node (name : str) (vendor product : N) : node :=
  mkNode (bs "/dev/input/event4") true (Some (fun c => (272 <=? c) && (c <=? 276))) (Some 3) (Some 0) (Some name) None None (Some (vendor, product)).
(* a power button *)
Definition button_node : node :=
  mkNode (bs "/dev/input/event5") true (Some (fun c => c =? 116)) (Some 0) (Some 0) (Some (bs "Power Button")) None None (Some (0, 1)).
Example C65_ex :
  dv_id (dev_of (keyboard_node (bs "AT keyboard") 0x46d 0xc52b)) = bs "046d:c52b:766d52e9" /\
  takenb (keyboard_node (bs "AT keyboard") 0x46d 0xc52b) = true /\ takenb (mouse_node (bs "M705") 0x46d 0x101b) = true /\
  dv_caps (dev_of (keyboard_node (bs "AT keyboard") 0x46d 0xc52b)) = 4 /\ dv_caps (dev_of (mouse_node (bs "M705") 0x46d 0x101b)) = 1 /\
  device_init button_node = NotTaken true.
Proof. vm_compute. repeat split. Qed.
Example C65_ex_traits : traits (keyboard_node (bs "ab") 1 2) ([0; 0; 0] ++ [100] ++ [0; 0; 97; 98])%Z
  /\ traits (mkNode (bs "/dev/input/event9") true (Some (fun c => (1 <=? c) && (c <=? 101))) (Some 0) (Some 0) (Some (bs "ab")) None None (Some (1, 2)))
       ([0; 0; 0] ++ [101] ++ [0; 0; 97; 98])%Z.
Proof.
  assert (Q : forall n l l', traits n l' -> l' = l -> traits n l) by (intros n l l' H <-; exact H).
  split; (eapply Q; [eapply traits_of; reflexivity|vm_compute; reflexivity]).
Qed.
Example C65_ex_config : let text := concat (map (fun l => bs l ++ [10]) ["[ids]"; "046d:c52b"; "[main]"; "a = b"]%string) in
  let c := cfg_of text in
  config_check_match c (dv_id (dev_of (keyboard_node (bs "AT keyboard") 0x46d 0xc52b))) 4 = 2 /\
  config_check_match c (dv_id (dev_of (keyboard_node (bs "AT keyboard") 0x46d 0xc52c))) 4 = 0.
Proof. vm_compute. auto. Qed.

(* ---- what does not hold -------------------------------------------------------------------------------- *)
(* device.c:168-176 speaks of a unique identifier: two keyboards with different names may
   have the same one. *)
Theorem C65_unique_refuted : exists n n' dv dv', taken_from n dv /\ taken_from n' dv' /\ nd_name n <> nd_name n' /\ dv_id dv = dv_id dv'.
Proof.
  exists (keyboard_node (bs "aB") 1 2), (keyboard_node (bs "b!") 1 2). eexists. eexists.
  split; [apply takenb_ok; vm_compute; reflexivity|]. split; [apply takenb_ok; vm_compute; reflexivity|]. split; [discriminate|].
  vm_compute. reflexivity.
Qed.
(* The id is meant to be reproducible: that of a device with a name of 64 bytes or more
   depends on the number of its node. *)
Theorem C65_reproducible_refuted : exists n n' dv dv', taken_from n dv /\ taken_from n' dv' /\
  n' = mkNode (bs "/dev/input/event4") (nd_open n) (nd_keys n) (nd_rel n) (nd_abs n) (nd_name n) (nd_x n) (nd_y n) (nd_id n) /\ dv_id dv <> dv_id dv'.
Proof.
  exists (keyboard_node (repeat 97 64) 1 2). eexists. eexists. eexists.
  split; [apply takenb_ok; vm_compute; reflexivity|]. split; [|split; [reflexivity|]].
  - apply takenb_ok. vm_compute. reflexivity.
  - vm_compute. discriminate.
Qed.
(* An id written with capital letters never applies. *)
Theorem C65_capitals_refuted : exists n dv, taken_from n dv /\ nd_id n = Some (0x46D, 0xC52B) /\ ~ starts (bs "046D:C52B") (dv_id dv).
Proof.
  exists (keyboard_node (bs "AT keyboard") 0x46d 0xc52b). eexists. split; [apply takenb_ok; vm_compute; reflexivity|]. split; [reflexivity|].
  apply (C65_foreign (keyboard_node (bs "AT keyboard") 0x46d 0xc52b)); [apply takenb_ok; vm_compute; reflexivity|].
  right. exists 68. split; [vm_compute; auto|lia].
Qed.
(* A keyboard that does not tell its name is not taken and its descriptor stays open. *)
Theorem C65_descriptor_refuted : exists n, nd_open n = true /\ keyboard_like n /\ device_init n = NotTaken false.
Proof.
  exists (mkNode (bs "/dev/input/event3") true (Some (fun c => (1 <=? c) && (c <=? 100))) (Some 0) (Some 0) None None None (Some (1, 2))).
  split; [reflexivity|]. split; [|reflexivity]. left. intros c Hc. eexists. split; [reflexivity|]. vm_compute in Hc.
  repeat (destruct Hc as [<-|Hc]; [reflexivity|]). contradiction.
Qed.
Definition C65_all := (C65_kind, C65_taken, C65_closed, C65_id, C65_rule, C65_foreign, C65_config, C65_same, C65_apart, C65_own, C65_loop_free,
  C65_ex, C65_ex_traits, C65_ex_config, C65_unique_refuted, C65_reproducible_refuted, C65_capitals_refuted, C65_descriptor_refuted).
Print Assumptions C65_all.
