(* The report of the USB gadget driver. *)
From Verif Require Import Base Lib Keys Device Gadget SpecGadget.
Local Open Scope N_scope.

Definition gadget_step (g : gst) (e : kevent) : gst := fst (gadget_send_key g (fst e) (if snd e then 1 else 0)%Z).
Definition gadget_run (evs : list kevent) : gst := fold_left gadget_step evs g_init.

Lemma held_snoc evs k p c : held (evs ++ [(k, p)]) c = if k =? c then p else held evs c.
Proof. unfold held. now rewrite fold_left_app. Qed.
Lemma run_snoc evs e : gadget_run (evs ++ [e]) = gadget_step (gadget_run evs) e.
Proof. unfold gadget_run. now rewrite fold_left_app. Qed.

Lemma get_modifier_bit c :
  get_modifier c = 0 /\ ~ In c modifier_keys \/
  exists i, nth_error modifier_keys i = Some c /\ get_modifier c = N.shiftl 1 (N.of_nat i) /\ (i < 8)%nat.
Proof.
  unfold get_modifier. cbn [assoc].
  destruct (N.eqb_spec 42 c) as [<-|]; [right; exists 1%nat; repeat split; lia|].
  destruct (N.eqb_spec 54 c) as [<-|]; [right; exists 5%nat; repeat split; lia|].
  destruct (N.eqb_spec 29 c) as [<-|]; [right; exists 0%nat; repeat split; lia|].
  destruct (N.eqb_spec 97 c) as [<-|]; [right; exists 4%nat; repeat split; lia|].
  destruct (N.eqb_spec 56 c) as [<-|]; [right; exists 2%nat; repeat split; lia|].
  destruct (N.eqb_spec 100 c) as [<-|]; [right; exists 6%nat; repeat split; lia|].
  destruct (N.eqb_spec 125 c) as [<-|]; [right; exists 3%nat; repeat split; lia|].
  destruct (N.eqb_spec 126 c) as [<-|]; [right; exists 7%nat; repeat split; lia|].
  left. split; [reflexivity|]. unfold modifier_keys. cbn [In]. intuition.
Qed.

Lemma modifier_keys_nodup : NoDup modifier_keys.
Proof. unfold modifier_keys. repeat constructor; cbn [In]; intuition discriminate. Qed.

Lemma shiftl_nz i : N.shiftl 1 i <> 0.
Proof. rewrite N.shiftl_1_l. apply N.pow_nonzero. discriminate. Qed.

Lemma bit_shiftl i j : N.testbit (N.shiftl 1 (N.of_nat i)) (N.of_nat j) = Nat.eqb i j.
Proof.
  rewrite N.shiftl_1_l. rewrite N.pow2_bits_eqb.
  destruct (N.eqb_spec (N.of_nat i) (N.of_nat j)); destruct (Nat.eqb_spec i j); try reflexivity; lia.
Qed.

Lemma mods_exact evs : forall i c, nth_error modifier_keys i = Some c ->
  N.testbit (g_mods (gadget_run evs)) (N.of_nat i) = held evs c.
Proof.
  induction evs as [|[k p] evs IH] using rev_ind; intros i c Hi.
  - cbn [gadget_run fold_left g_init g_mods held]. apply N.bits_0.
  - rewrite run_snoc, held_snoc. unfold gadget_step, gadget_send_key. cbn [fst snd].
    unfold update_modifier_state.
    destruct (get_modifier_bit k) as [[Ek Nk]|(j & Hj & Ek & _)].
    + rewrite Ek. cbn [N.eqb]. unfold update_key_state. cbn [g_mods].
      rewrite (IH i c Hi). destruct (N.eqb_spec k c) as [->|]; [|reflexivity].
      exfalso. apply Nk. eapply nth_error_In; eauto.
    + rewrite Ek. replace (N.shiftl 1 (N.of_nat j) =? 0) with false
        by (symmetry; apply N.eqb_neq, shiftl_nz).
      cbn [g_mods].
      assert (J : (k =? c) = Nat.eqb j i).
      { destruct (Nat.eqb_spec j i) as [->|Hn].
        - rewrite Hi in Hj. injection Hj as ->. apply N.eqb_refl.
        - apply N.eqb_neq. intros ->. apply Hn.
          eapply (proj1 (NoDup_nth_error modifier_keys) modifier_keys_nodup); [|congruence].
          apply nth_error_Some. congruence. }
      rewrite J. destruct p; cbn [Z.eqb].
      * rewrite N.lor_spec, (IH i c Hi), bit_shiftl. destruct (Nat.eqb j i); [apply orb_true_r|apply orb_false_r].
      * rewrite N.ldiff_spec, (IH i c Hi), bit_shiftl. destruct (Nat.eqb j i); cbn [negb];
        [apply andb_false_r|apply andb_true_r].
Qed.

Lemma mods_byte evs : g_mods (gadget_run evs) < 256.
Proof.
  assert (K : forall i, (8 <= i) -> N.testbit (g_mods (gadget_run evs)) i = false).
  { induction evs as [|[k p] evs IH] using rev_ind; intros i Hi.
    - apply N.bits_0.
    - rewrite run_snoc. unfold gadget_step, gadget_send_key. cbn [fst snd]. unfold update_modifier_state.
      destruct (get_modifier_bit k) as [[Ek Nk]|(j & Hj & Ek & L)].
      + rewrite Ek. cbn [N.eqb]. unfold update_key_state. cbn [g_mods]. auto.
      + rewrite Ek. replace (N.shiftl 1 (N.of_nat j) =? 0) with false
          by (symmetry; apply N.eqb_neq, shiftl_nz).
        cbn [g_mods]. destruct p; cbn [Z.eqb].
        * rewrite N.lor_spec, IH by exact Hi. rewrite N.shiftl_1_l, N.pow2_bits_eqb.
          apply N.eqb_neq. lia.
        * rewrite N.ldiff_spec, IH by exact Hi. reflexivity. }
  destruct (N.eq_dec (g_mods (gadget_run evs)) 0) as [->|Hz]; [reflexivity|].
  apply (N.log2_lt_pow2 _ 8); [lia|].
  destruct (N.lt_ge_cases (N.log2 (g_mods (gadget_run evs))) 8) as [|Hge]; [assumption|].
  exfalso. pose proof (K _ Hge) as F. rewrite N.bit_log2 in F by exact Hz. discriminate F.
Qed.

(* ---- the six key bytes ------------------------------------------------------ *)
(* the keys that have a HID code and are not modifiers *)
Definition plain_keys : list N :=
  filter (fun c => (get_modifier c =? 0) && negb (hid_table c =? 0)) (map fst hid_pairs).

Lemma assoc_in l c v : assoc l c = Some v -> In (c, v) l.
Proof.
  induction l as [|[a b] l IH]; cbn [assoc]; [discriminate|].
  destruct (N.eqb_spec a c) as [->|]; [|intros; right; auto].
  intros [= ->]. now left.
Qed.

Lemma plain_spec c : In c plain_keys <-> get_modifier c = 0 /\ hid_table c <> 0.
Proof.
  unfold plain_keys. rewrite filter_In, andb_true_iff, negb_true_iff, N.eqb_eq, N.eqb_neq.
  split; [tauto|]. intros [Hm Hh]. repeat split; auto.
  unfold hid_table in Hh. destruct (assoc hid_pairs c) as [h|] eqn:E; [|now destruct Hh].
  apply assoc_in in E. apply (in_map fst) in E. exact E.
Qed.

Fixpoint distinctb (l : list N) : bool :=
  match l with [] => true | x :: r => negb (existsb (N.eqb x) r) && distinctb r end.
Lemma distinctb_ok l : distinctb l = true -> NoDup l.
Proof.
  induction l as [|x r IH]; cbn [distinctb]; [constructor|].
  rewrite andb_true_iff, negb_true_iff. intros [H1 H2]. constructor; [|auto].
  intros Hin. assert (existsb (N.eqb x) r = true) as F; [|congruence].
  apply existsb_exists. exists x. split; auto. apply N.eqb_refl.
Qed.

Lemma plain_nodup : NoDup plain_keys.
Proof. apply distinctb_ok. vm_compute. reflexivity. Qed.
Lemma hid_nodup : NoDup (map hid_table plain_keys).
Proof. apply distinctb_ok. vm_compute. reflexivity. Qed.

Lemma map_nodup_inj {A B} (f : A -> B) l : NoDup (map f l) ->
  forall x y, In x l -> In y l -> f x = f y -> x = y.
Proof.
  induction l as [|a l IH]; cbn [map In]; intros Hn x y Hx Hy E; [destruct Hx|].
  inversion Hn as [|? ? Ha Hl]; subst.
  destruct Hx as [->|Hx], Hy as [->|Hy]; auto.
  - exfalso. apply Ha. rewrite E. now apply in_map.
  - exfalso. apply Ha. rewrite <- E. now apply in_map.
Qed.
Lemma hid_inj x y : In x plain_keys -> In y plain_keys -> hid_table x = hid_table y -> x = y.
Proof. apply map_nodup_inj, hid_nodup. Qed.

Local Opaque plain_keys hid_table.

Definition nz (l : list N) : list N := filter (fun x => negb (x =? 0)) l.
Lemma nz_in l x : In x (nz l) <-> In x l /\ x <> 0.
Proof. unfold nz. rewrite filter_In, negb_true_iff, N.eqb_neq. tauto. Qed.
Lemma nz_length l : (length (nz l) <= length l)%nat.
Proof. induction l; cbn [nz filter length]; [lia|]. fold (nz l). destruct (negb _); cbn [length]; lia. Qed.

Lemma put_length l h : length (put_key l h) = length l.
Proof. induction l as [|x r IH]; cbn [put_key length]; [reflexivity|]. destruct (x =? 0); cbn [length]; congruence. Qed.

(* there is room: the key is added *)
Lemma put_room l h : h <> 0 -> (length (nz l) < length l)%nat ->
  (forall x, In x (nz (put_key l h)) <-> x = h \/ In x (nz l)) /\
  (NoDup (nz l) -> ~ In h l -> NoDup (nz (put_key l h))).
Proof.
  intros Hh. induction l as [|x r IH]; cbn [put_key nz filter length]; [lia|].
  fold (nz r). destruct (N.eqb_spec x 0) as [->|Hx]; cbn [negb].
  - intros _. cbn [nz filter]. fold (nz r). destruct (N.eqb_spec h 0) as [?|_]; [easy|]. cbn [negb].
    split.
    + intros y. cbn [In]. split; intuition.
    + intros Hn Hi. constructor; [|exact Hn]. rewrite nz_in. intros [? _]. apply Hi. now right.
  - cbn [length]. intros Hl. destruct IH as [I1 I2]; [lia|].
    cbn [nz filter]. fold (nz (put_key r h)). destruct (N.eqb_spec x 0) as [?|_]; [easy|]. cbn [negb].
    split.
    + intros y. cbn [In]. rewrite I1. intuition.
    + intros Hn Hi. inversion Hn as [|? ? H1 H2]; subst. constructor.
      * rewrite I1. intros [->|?]; [apply Hi; now left|auto].
      * apply I2; auto. intros ?. apply Hi. now right.
Qed.

(* no room: nothing changes *)
Lemma put_full l h : length (nz l) = length l -> put_key l h = l.
Proof.
  induction l as [|x r IH]; cbn [put_key nz filter length]; [reflexivity|].
  fold (nz r). destruct (x =? 0) eqn:E; cbn [negb].
  - intros H. pose proof (nz_length r). lia.
  - cbn [length]. intros [= H]. now rewrite IH.
Qed.

Lemma remove_spec l h x : h <> 0 -> In x (nz (map (fun x => if x =? h then 0 else x) l)) <-> In x (nz l) /\ x <> h.
Proof.
  intros Hh. rewrite !nz_in, in_map_iff. split.
  - intros [(y & <- & Hy) Hn]. destruct (N.eqb_spec y h); [easy|auto].
  - intros [[Hi Hz] Hn]. split; [|assumption]. exists x. split; [|assumption].
    destruct (N.eqb_spec x h); [easy|reflexivity].
Qed.
Lemma remove_nodup l h : NoDup (nz l) -> NoDup (nz (map (fun x => if x =? h then 0 else x) l)).
Proof.
  induction l as [|x r IH]; cbn [map nz filter]; [auto|]. fold (nz r).
  fold (nz (map (fun x => if x =? h then 0 else x) r)).
  destruct (N.eqb_spec x h) as [->|Hx]; cbn [N.eqb negb].
  - intros H. apply IH. destruct (negb (h =? 0)); [now inversion H|exact H].
  - destruct (negb (x =? 0)) eqn:E; [|exact IH].
    intros H. inversion H as [|? ? H1 H2]; subst. constructor; [|auto].
    rewrite nz_in in *. intros [Hi Hz]. apply H1. apply in_map_iff in Hi as (y & Hy & Hi).
    destruct (y =? h); [congruence|]. subst. auto.
Qed.

Lemma in_existsb l h : existsb (fun x => x =? h) l = true <-> In h l.
Proof.
  rewrite existsb_exists. split; [intros (x & Hi & E%N.eqb_eq); now subst|].
  intros Hi. exists h. split; auto. apply N.eqb_refl.
Qed.

(* One event and the key bytes. *)
Lemma keys_step g c p :
  length (g_keys g) = 6%nat -> NoDup (nz (g_keys g)) ->
  let g' := gadget_step g (c, p) in
  length (g_keys g') = 6%nat /\ NoDup (nz (g_keys g')) /\
  (~ In c plain_keys -> g_keys g' = g_keys g) /\
  (In c plain_keys -> p = false -> forall x, In x (nz (g_keys g')) <-> In x (nz (g_keys g)) /\ x <> hid_table c) /\
  (In c plain_keys -> p = true -> (length (nz (g_keys g)) < 6)%nat ->
     forall x, In x (nz (g_keys g')) <-> x = hid_table c \/ In x (nz (g_keys g))) /\
  (In c plain_keys -> p = true -> In (hid_table c) (g_keys g) -> g_keys g' = g_keys g) /\
  (In c plain_keys -> p = true -> length (nz (g_keys g)) = 6%nat -> g_keys g' = g_keys g).
Proof.
  intros Hl Hn g'. subst g'. unfold gadget_step, gadget_send_key. cbn [fst snd].
  unfold update_modifier_state.
  destruct (get_modifier c =? 0) eqn:Em.
  2:{ cbn [fst g_keys]. apply N.eqb_neq in Em. assert (Hnp : ~ In c plain_keys) by (rewrite plain_spec; tauto).
      split; [exact Hl|]. split; [exact Hn|]. split; [auto|]. repeat split; intros; contradiction. }
  apply N.eqb_eq in Em. cbn [fst]. unfold update_key_state. cbn [g_keys].
  destruct (N.eq_dec (hid_table c) 0) as [Hz|Hz].
  - (* no HID code *)
    assert (K : map (fun x => if x =? hid_table c then 0 else x) (g_keys g) = g_keys g).
    { rewrite Hz. rewrite <- (map_id (g_keys g)) at 2. apply map_ext. intros x.
      destruct (N.eqb_spec x 0); congruence. }
    assert (K2 : (if negb ((if p then 1 else 0) =? 0)%Z && negb (existsb (fun x => x =? hid_table c) (g_keys g))
                  then put_key (if ((if p then 1 else 0) =? 0)%Z then map (fun x => if x =? hid_table c then 0 else x) (g_keys g) else g_keys g) (hid_table c)
                  else if ((if p then 1 else 0) =? 0)%Z then map (fun x => if x =? hid_table c then 0 else x) (g_keys g) else g_keys g) = g_keys g).
    { rewrite K. destruct p; cbn [Z.eqb negb andb]; [|reflexivity].
      destruct (existsb _ _) eqn:Ex; cbn [negb]; [reflexivity|].
      apply put_full. f_equal. rewrite Hz in Ex. clear -Ex.
      induction (g_keys g) as [|x r IH]; cbn [nz filter existsb] in *; [reflexivity|].
      apply orb_false_iff in Ex as [E1 E2]. rewrite E1. cbn [negb]. fold (nz r). now rewrite IH. }
    rewrite K2. assert (Hnp : ~ In c plain_keys) by (rewrite plain_spec; tauto).
    split; [exact Hl|]. split; [exact Hn|]. split; [auto|]. repeat split; intros; contradiction.
  - assert (Hp : In c plain_keys) by (apply plain_spec; auto).
    destruct p; cbn [Z.eqb negb andb].
    + destruct (existsb (fun x => x =? hid_table c) (g_keys g)) eqn:Ex; cbn [negb].
      * apply in_existsb in Ex. split; [exact Hl|]. split; [exact Hn|]. split; [auto|].
        split; [intros _ F; discriminate F|]. split; [|auto].
        intros _ _ _ x. split; [auto|]. intros [->|Hi]; [rewrite nz_in; auto|exact Hi].
      * assert (Hni : ~ In (hid_table c) (g_keys g)) by (rewrite <- in_existsb; congruence).
        destruct (Nat.lt_ge_cases (length (nz (g_keys g))) 6) as [Hlt|Hge].
        -- destruct (put_room (g_keys g) (hid_table c) Hz) as [P1 P2]; [lia|].
           rewrite put_length. split; [exact Hl|]. split; [auto|].
           split; [contradiction|]. split; [intros _ F; discriminate F|]. split; [auto|]. split; [contradiction|]. intros _ _ ?. lia.
        -- pose proof (nz_length (g_keys g)).
           rewrite put_full by lia. split; [exact Hl|]. split; [exact Hn|]. split; [auto|]. split; [intros _ F; discriminate F|].
           split; [intros _ _ ?; lia|]. split; auto.
    + rewrite map_length. split; [exact Hl|]. split; [now apply remove_nodup|]. split; [contradiction|].
      split; [intros _ _ x; now apply remove_spec|]. repeat split; intros; discriminate.
Qed.

Lemma keys_inv evs : length (g_keys (gadget_run evs)) = 6%nat /\ NoDup (nz (g_keys (gadget_run evs))).
Proof.
  induction evs as [|[c p] evs [I1 I2]] using rev_ind.
  - split; [reflexivity|constructor].
  - rewrite run_snoc. destruct (keys_step _ c p I1 I2) as (A & B & _). auto.
Qed.

Lemma keys_sound evs x : In x (nz (g_keys (gadget_run evs))) ->
  exists c, In c plain_keys /\ hid_table c = x /\ held evs c = true.
Proof.
  revert x. induction evs as [|[c p] evs IH] using rev_ind; intros x Hx.
  - cbn in Hx. destruct Hx.
  - rewrite run_snoc in Hx. destruct (keys_inv evs) as [I1 I2].
    destruct (keys_step _ c p I1 I2) as (_ & _ & S1 & S2 & S3 & S4 & S5).
    destruct (in_dec N.eq_dec c plain_keys) as [Hc|Hc].
    + destruct p.
      * assert (K : x = hid_table c \/ In x (nz (g_keys (gadget_run evs)))).
        { destruct (Nat.lt_ge_cases (length (nz (g_keys (gadget_run evs)))) 6) as [Hlt|Hge].
          - apply S3; auto.
          - pose proof (nz_length (g_keys (gadget_run evs))). rewrite S5 in Hx by (auto; lia). auto. }
        destruct K as [->|K].
        -- exists c. rewrite held_snoc, N.eqb_refl. auto.
        -- destruct (IH _ K) as (c' & A & B & C). exists c'. rewrite held_snoc.
           destruct (c =? c'); auto.
      * apply S2 in Hx as [K Hn]; auto. destruct (IH _ K) as (c' & A & B & C). exists c'.
        rewrite held_snoc. destruct (N.eqb_spec c c') as [->|]; [congruence|auto].
    + rewrite S1 in Hx by exact Hc. destruct (IH _ Hx) as (c' & A & B & C). exists c'.
      rewrite held_snoc. destruct (N.eqb_spec c c') as [->|]; [easy|auto].
Qed.

Definition held_plain (evs : list kevent) : list N := filter (held evs) plain_keys.

Lemma held_plain_nodup evs : NoDup (map hid_table (held_plain evs)).
Proof.
  unfold held_plain. pose proof hid_nodup as H. revert H. generalize plain_keys as l.
  induction l as [|x r IH]; cbn [map filter]; intros H; [constructor|].
  inversion H as [|? ? H1 H2]; subst. destruct (held evs x); cbn [map]; [|auto].
  constructor; [|auto]. intros Hi. apply H1. apply in_map_iff in Hi as (y & E & Hy).
  apply filter_In in Hy as [Hy _]. rewrite <- E. now apply in_map.
Qed.

Lemma keys_exact evs :
  (forall a b, evs = a ++ b -> (length (held_plain a) <= 6)%nat) ->
  forall c, In c plain_keys -> In (hid_table c) (g_keys (gadget_run evs)) <-> held evs c = true.
Proof.
  intros Hsix.
  assert (K : forall c, In c plain_keys -> In (hid_table c) (nz (g_keys (gadget_run evs))) <-> held evs c = true).
  { revert Hsix. induction evs as [|[k p] evs IH] using rev_ind; intros Hsix c Hc.
    - cbn [gadget_run fold_left g_init g_keys held]. split; [cbn; easy|discriminate].
    - assert (Hpre : forall a b, evs = a ++ b -> (length (held_plain a) <= 6)%nat).
      { intros a b ->. apply (Hsix a (b ++ [(k, p)])). now rewrite app_assoc. }
      specialize (IH Hpre). rewrite run_snoc, held_snoc. destruct (keys_inv evs) as [I1 I2].
      destruct (keys_step _ k p I1 I2) as (_ & _ & S1 & S2 & S3 & S4 & S5).
      destruct (in_dec N.eq_dec k plain_keys) as [Hk|Hk].
      2:{ rewrite S1 by exact Hk. destruct (N.eqb_spec k c) as [->|]; [easy|auto]. }
      destruct p.
      + destruct (held evs k) eqn:Eh.
        * assert (Hin : In (hid_table k) (nz (g_keys (gadget_run evs)))) by (now apply IH).
          apply nz_in in Hin as [Hin _]. rewrite S4 by auto.
          destruct (N.eqb_spec k c) as [->|]; [rewrite IH by exact Hc; tauto|auto].
        * (* there is room *)
          assert (Hroom : (length (nz (g_keys (gadget_run evs))) < 6)%nat).
          { assert (L1 : (length (nz (g_keys (gadget_run evs))) <= length (held_plain evs))%nat).
            { rewrite <- (map_length hid_table (held_plain evs)). apply NoDup_incl_length; [exact I2|].
              intros x Hx. destruct (keys_sound _ _ Hx) as (c' & A & <- & C). apply in_map.
              unfold held_plain. apply filter_In. auto. }
            assert (L2 : (S (length (held_plain evs)) <= length (held_plain (evs ++ [(k, true)])))%nat).
            { change (S (length (held_plain evs))) with (length (k :: held_plain evs)).
              apply NoDup_incl_length.
              - constructor.
                + unfold held_plain. rewrite filter_In. intros [_ F]. congruence.
                + unfold held_plain. apply NoDup_filter, plain_nodup.
              - intros y [<-|Hy]; unfold held_plain; apply filter_In.
                + rewrite held_snoc, N.eqb_refl. auto.
                + unfold held_plain in Hy. apply filter_In in Hy as [Hy1 Hy2].
                  rewrite held_snoc. destruct (k =? y); auto. }
            pose proof (Hsix (evs ++ [(k, true)]) [] (eq_sym (app_nil_r _))). lia. }
          rewrite S3 by auto. destruct (N.eqb_spec k c) as [->|Hn].
          -- tauto.
          -- rewrite IH by exact Hc. split; [|auto]. intros [E|?]; [|assumption].
             exfalso. apply Hn. symmetry. now apply hid_inj.
      + rewrite S2 by auto. destruct (N.eqb_spec k c) as [->|Hn].
        * split; [intros [_ F]; now destruct F|discriminate].
        * rewrite IH by exact Hc. split; [tauto|]. intros H. split; [exact H|].
          intros E. apply Hn. symmetry. now apply hid_inj. }
  intros c Hc. rewrite <- (K c Hc), nz_in. apply plain_spec in Hc. tauto.
Qed.

(* once reported, a key stays reported until it is released *)
Lemma key_stays evs c more : In c plain_keys -> In (hid_table c) (g_keys (gadget_run evs)) ->
  ~ In (c, false) more -> In (hid_table c) (g_keys (gadget_run (evs ++ more))).
Proof.
  intros Hc Hin. induction more as [|[k p] more IH] using rev_ind; intros Hno.
  - now rewrite app_nil_r.
  - rewrite app_assoc, run_snoc.
    assert (Hin' : In (hid_table c) (g_keys (gadget_run (evs ++ more)))).
    { apply IH. intros F. apply Hno. apply in_app_iff. auto. }
    destruct (keys_inv (evs ++ more)) as [I1 I2].
    destruct (keys_step _ k p I1 I2) as (_ & _ & S1 & S2 & S3 & S4 & S5).
    destruct (in_dec N.eq_dec k plain_keys) as [Hk|Hk]; [|refine (eq_ind_r (fun l => In _ l) Hin' (S1 Hk))].
    assert (Hz : hid_table c <> 0) by (apply plain_spec in Hc; tauto).
    destruct p.
    + destruct (Nat.lt_ge_cases (length (nz (g_keys (gadget_run (evs ++ more))))) 6) as [Hlt|Hge].
      * refine (proj1 (proj1 (nz_in _ _) _)). apply S3; auto. right. apply nz_in. auto.
      * pose proof (nz_length (g_keys (gadget_run (evs ++ more)))). refine (eq_ind_r (fun l => In _ l) Hin' (S5 Hk eq_refl _)). lia.
    + refine (proj1 (proj1 (nz_in _ _) _)). apply S2; auto. split; [apply nz_in; auto|].
      intros E. apply Hno. apply in_app_iff. right. left. f_equal. symmetry. now apply hid_inj.
Qed.
