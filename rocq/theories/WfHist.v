(* Invariants along whole histories. *)
From Verif Require Import Base Lib Keys Types MacroExec Kbd Config Outside Steps Hist SpecWf SpecHist ModsProofs
  Engine Wf WfEvents ParseWf.

(* the number and kinds of the layers *)
Definition same_kinds (c c' : config) : Prop :=
  length (c_layers c') = length (c_layers c)
  /\ forall i, ly_type (nth i (c_layers c') zero_layer) = ly_type (nth i (c_layers c) zero_layer).

Lemma parse_descriptor_layers c s c' d : inv c -> parse_descriptor c s = Ok (c', d) -> c_layers c' = c_layers c.
Proof. intros Hi H. apply (parse_desc_ok _ _ _ _ Hi) in H as [_ [[H _] _]]. exact H. Qed.

Lemma config_add_entry_kinds c exp c' ok : inv c -> config_add_entry c exp = Ok (c', ok) -> same_kinds c c'.
Proof.
  intros Hi H.
  assert (Hr : same_kinds c c) by (split; auto).
  unfold config_add_entry in H.
  destruct (N.leb _ _); [injection H as <- <-; auto|].
  match type of H with (let '(_, _) := ?e in _) = _ => destruct e as [lname s] end.
  destruct (Ini.parse_kvp s) as [key val].
  destruct (config_get_layer_index c lname) as [idx|] eqn:Ei; [|injection H as <- <-; auto].
  bstep H r E. destruct r as [c1 d].
  assert (Hc1 : c_layers c1 = c_layers c /\ inv c1).
  { destruct val as [v|].
    - pose proof E as E'. apply parse_descriptor_layers in E; auto. split; auto.
      apply (parse_desc_ok _ _ _ _ Hi) in E' as [G _]. exact G.
    - injection E as <- <-. auto. }
  destruct Hc1 as [Hc1 Hi1].
  assert (Hr1 : same_kinds c c1) by (split; [now rewrite Hc1|intros; now rewrite Hc1]).
  destruct d as [d|]; [|injection H as <- <-; auto].
  destruct (set_layer_entry _ _ _ _) as [l|] eqn:El; injection H as <- <-; auto.
  assert (Ht : ly_type l = ly_type (nth idx (c_layers c1) zero_layer)).
  { unfold set_layer_entry in El.
    repeat match type of El with
    | (if ?b then _ else _) = _ => destruct b
    | match ?b with _ => _ end = _ => destruct b
    end; try discriminate El; injection El as <-; reflexivity. }
  split; cbn [c_layers set_c_layers]; rewrite <- ?Hc1.
  - apply upd_length.
  - intros i. rewrite nth_upd. destruct (_ && _) eqn:E1; auto. bsplit. subst. auto.
Qed.

Lemma same_kinds_refs c c' : same_kinds c c' -> forall i,
  (layer_ref c i -> layer_ref c' i) /\ (layout_ref c i -> layout_ref c' i).
Proof.
  intros [H1 H2] i. unfold layer_ref, layout_ref. rewrite H1, H2. auto.
Qed.

Lemma wfk_set_cfg k c' : wfk k -> wf_config c' -> same_kinds (k_cfg k) c' -> ~ striking k ->
  wfk (set_k_cfg c' k).
Proof.
  intros [W1 W2 W3 W4 W5 W6 W7 W7' W8 W9] Hc HK Hs.
  pose proof (same_kinds_refs _ _ HK) as HR. destruct HK as [HL _].
  assert (HD : forall d, sdesc (k_cfg k) d -> sdesc c' d).
  { intros d. now apply ok_desc_refs. }
  constructor; cbn [k_cfg k_cache k_achords k_pend k_chord k_amacro k_ls set_k_cfg]; rewrite ?HL; auto.
  - eapply Forall_impl; [|exact W3]. intros e [E1 E2]. split; [auto|now rewrite HL].
  - eapply Forall_impl; [|exact W5]. intros e [E1 E2]. split; [auto|now rewrite ?HL].
  - destruct W6 as [A [B C]]. auto.
  - unfold chord_ok, striking in *. destruct (h_state (k_chord k)); auto; exfalso; auto.
  - intros i Hi. apply HR. auto.
Qed.

Lemma find_layout_spec name : forall ls i j, find_layout ls name i = Some j ->
  i <= j < i + length ls /\ ly_type (nth (j - i) ls zero_layer) = LLayout.
Proof.
  induction ls as [|l r IH]; cbn [find_layout length]; intros i j H; [discriminate|].
  destruct (is_layout (ly_type l)) eqn:E1; cbn [andb] in H.
  - destruct (str_eqb (ly_name l) name).
    + injection H as <-. rewrite Nat.sub_diag. split; [lia|]. now apply is_layout_spec.
    + apply IH in H as [H1 H2]. split; [lia|]. replace (j - i) with (S (j - S i)) by lia. exact H2.
  - apply IH in H as [H1 H2]. split; [lia|]. replace (j - i) with (S (j - S i)) by lia. exact H2.
Qed.

(* the initial layer states *)
Lemma new_ls c clk i : k_ls (new_keyboard c clk) i = zero_lst
  \/ (k_ls (new_keyboard c clk) i = mkLst 0 1 false 0 /\ i = 0)
  \/ (k_ls (new_keyboard c clk) i = mkLst 1 1 false 0
      /\ find_layout (c_layers c) (c_default_layout c) 0 = Some i).
Proof.
  unfold new_keyboard. cbn [k_ls].
  destruct (c_default_layout c) as [|ch0 r] eqn:Ed.
  - unfold nupd. destruct (Nat.eqb_spec i 0); auto.
  - destruct (find_layout (c_layers c) (ch0 :: r) 0) as [j|] eqn:E.
    + unfold nupd. destruct (Nat.eqb_spec i j) as [->|]; auto. destruct (Nat.eqb_spec i 0); auto.
    + unfold nupd. destruct (Nat.eqb_spec i 0); auto.
Qed.

Lemma wfk_new c clk : inv c -> wfk (new_keyboard c clk).
Proof.
  intros [W _]. pose proof (wf_some _ W) as Hn.
  constructor; try exact W; try reflexivity.
  - cbn [k_cache k_cfg new_keyboard]. apply Forall_forall. intros e He. apply repeat_spec in He. subst.
    split; [exact I|exact Hn].
  - cbn [k_achords k_cfg new_keyboard]. apply Forall_forall. intros e He. apply repeat_spec in He. subst.
    split; [exact I|exact Hn].
  - repeat split; exact Hn.
  - exact Hn.
  - discriminate.
  - intros i. destruct (new_ls c clk i) as [->|[[-> _]|[-> _]]]; cbn; intros [H|H]; congruence.
  - cbn. unfold i16. lia.
Qed.

(* ---- the general principle -------------------------------------------------------- *)
Section HistJ.
Variable J : kbd -> Prop.
Hypothesis HJ : forall k k', wprim k k' -> wf_config (k_cfg k) -> J k -> J k'.
Hypothesis HE : forall k c', same_kinds (k_cfg k) c' -> J k -> J (set_k_cfg c' k).
Hypothesis HO : forall k k', outside k k' -> J k -> J k'.
Variable c : config.
Hypothesis Hc : inv c.
Variable clk : Z.
Hypothesis H0 : (1 <= clk)%Z -> J (new_keyboard c clk).

Lemma history_inv k : history c clk k ->
  wfk k /\ J k /\ inv (k_cfg k) /\ inv (k_orig k) /\ same_kinds (k_cfg k) (k_orig k).
Proof.
  intros H. induction H as [H|k fuel evs k' t Hh IH H|k exp k' ok Hh IH Hs H|k k' Hh IH H].
  - split; [now apply wfk_new|]. split; [auto|]. split; [exact Hc|]. split; [exact Hc|]. split; auto.
  - destruct IH as [W [Hj [I1 [I2 K]]]].
    set (J' := fun k0 => J k0 /\ k_cfg k0 = k_cfg k /\ k_orig k0 = k_orig k).
    assert (G := process_events_wfJ J').
    assert (GJ : forall k k', wprim k k' -> wf_config (k_cfg k) -> J' k -> J' k').
    { intros a b Hp Hw [A1 [A2 A3]]. destruct (wprim_cfg _ _ Hp) as [B1 B2].
      split; [eapply HJ; eauto|]. split; congruence. }
    specialize (G GJ fuel k evs (conj W (conj Hj (conj eq_refl eq_refl)))).
    rewrite H in G. destruct G as [G1 [G2 [G3 G4]]]. cbn [fst] in *. rewrite G3, G4. auto.
  - destruct IH as [W [Hj [I1 [I2 K]]]]. unfold kbd_eval in H.
    destruct (str_eqb exp _).
    + injection H as <- <-.
      split; [apply wfk_set_cfg; auto; apply I2|].
      split; [now apply HE|]. split; [exact I2|]. split; [exact I2|]. split; auto.
    + bstep H r E. destruct r as [c1 ok1]. injection H as <- <-.
      pose proof (config_add_entry_ok _ _ _ _ I1 E) as I3.
      pose proof (config_add_entry_kinds _ _ _ _ I1 E) as K3.
      split; [apply wfk_set_cfg; auto; apply I3|].
      split; [now apply HE|]. split; [exact I3|]. split; [exact I2|].
      destruct K as [Ka Kb], K3 as [K3a K3b]. split; cbn [k_cfg k_orig set_k_cfg].
      * congruence.
      * intros i. now rewrite Kb, K3b.
  - destruct IH as [W [Hj [I1 [I2 K]]]]. split; [destruct H; destruct W; constructor; assumption|]. split; [eauto|].
    destruct H; cbn [k_cfg k_orig set_k_clock set_k_scroll]; auto.
Qed.
End HistJ.

Lemma history_wf c clk k : inv c -> history c clk k -> wfk k.
Proof. intros Hc H. eapply (history_inv (fun _ => True)); eauto. Qed.

Lemma history_reach c clk k : history c clk k -> reach (fun _ => True) c k.
Proof. induction 1; eauto using reach_init, reach_events, reach_eval, reach_outside. Qed.

(* ---- at most one layout ------------------------------------------------------------- *)
Definition one_layout (k : kbd) : Prop :=
  forall i j, i <> 0 -> j <> 0 -> layout (k_cfg k) i -> layout (k_cfg k) j -> on k i -> on k j -> i = j.

Lemma drop_layouts_ls k : forall l k0, k_cfg k0 = k_cfg k -> forall i,
  l_active (k_ls (fold_left drop_layout l k0) i)
  = if existsb (Nat.eqb i) l && is_layout (ly_type (layer_at k i)) then 0%N else l_active (k_ls k0 i).
Proof.
  induction l as [|x l IH]; intros k0 Hk i; cbn [fold_left existsb]; auto.
  rewrite IH.
  - unfold drop_layout. assert (E : layer_at k0 x = layer_at k x) by (unfold layer_at; now rewrite Hk).
    rewrite E. destruct (is_layout (ly_type (layer_at k x))) eqn:El.
    + cbn [set_lsi set_k_ls k_ls]. unfold nupd. destruct (Nat.eqb_spec i x) as [->|Hn]; cbn [orb].
      * rewrite El. rewrite Bool.andb_true_r. destruct (existsb _ l); reflexivity.
      * reflexivity.
    + destruct (Nat.eqb_spec i x) as [->|Hn]; cbn [orb]; auto. rewrite El, Bool.andb_false_r. reflexivity.
  - unfold drop_layout. destruct (is_layout _); auto.
Qed.
Lemma existsb_seq i a n : existsb (Nat.eqb i) (seq a n) = Nat.leb a i && Nat.ltb i (a + n).
Proof.
  apply eq_true_iff_eq. rewrite existsb_exists, andb_true_iff, Nat.leb_le, Nat.ltb_lt. split.
  - intros [x [Hx E]]. apply Nat.eqb_eq in E. subst. apply in_seq in Hx. lia.
  - intros H. exists i. split; [apply in_seq; lia|apply Nat.eqb_refl].
Qed.

Lemma layout_range k i : i <> 0 -> is_layout (ly_type (layer_at k i)) = true ->
  existsb (Nat.eqb i) (seq 1 (nlayers k - 1)) = true.
Proof.
  intros Hz El. rewrite existsb_seq.
  assert (i < nlayers k).
  { unfold layer_at in El. unfold nlayers. destruct (Nat.ltb_spec i (length (c_layers (k_cfg k)))); auto.
    rewrite nth_overflow in El by lia. discriminate. }
  apply andb_true_iff. rewrite Nat.leb_le, Nat.ltb_lt. lia.
Qed.
(* activation counts after a layout change *)
Lemma to_layout_active k idx i : layout_ref (k_cfg k) idx ->
  l_active (k_ls (to_layout k idx) i) =
    if Nat.eqb i 0 then l_active (k_ls k i)
    else if is_layout (ly_type (layer_at k i)) then (if Nat.eqb i idx then 1 else 0)%N
    else l_active (k_ls k i).
Proof.
  intros [Hn Hi]. unfold to_layout. cbn [emit k_ls set_k_out].
  assert (G := drop_layouts_ls k (seq 1 (nlayers k - 1)) k eq_refl).
  destruct (Nat.eqb_spec idx 0) as [->|Hz].
  - rewrite G. destruct (Nat.eqb_spec i 0) as [->|Hi0]; [now rewrite existsb_seq|].
    destruct (is_layout (ly_type (layer_at k i))) eqn:El.
    + rewrite layout_range by auto. cbn [andb]. destruct (Nat.eqb_spec i 0); congruence.
    + now rewrite andb_false_r.
  - cbn [set_lsi set_k_ls k_ls]. unfold nupd. destruct (Nat.eqb_spec i idx) as [->|Hne].
    + cbn [l_active set_l_active]. destruct (Nat.eqb_spec idx 0); [congruence|].
      destruct Hi as [->|Hi]; [congruence|]. unfold layer_at. rewrite Hi. reflexivity.
    + rewrite G. destruct (Nat.eqb_spec i 0) as [->|Hi0]; [now rewrite existsb_seq|].
      destruct (is_layout (ly_type (layer_at k i))) eqn:El.
      * rewrite layout_range by auto. reflexivity.
      * now rewrite andb_false_r.
Qed.

Lemma one_layout_prim k k' : wprim k k' -> wf_config (k_cfg k) -> one_layout k -> one_layout k'.
Proof.
  intros Hp Wc HJ i j Hi Hj. destruct (wprim_cfg _ _ Hp) as [Ec _]. rewrite Ec. intros Li Lj.
  specialize (HJ i j Hi Hj Li Lj). unfold on in *.
  destruct Hp as [k l s o Ho|k k' E1 E2 E3 E4 E5 E6|k code x k' Hx E|k x k' Hx E|k x l Hx E1 E2|k idx Hidx].
  - exact HJ.
  - rewrite E3. exact HJ.
  - unfold activate_layer in E. bauto E. cbn [emit set_k_out set_k_cache set_k_clock set_lsi set_k_ls k_ls].
    unfold nupd. destruct Hx as [_ [_ Hx]].
    destruct (Nat.eqb_spec i x) as [->|]; [elim Hx; exact Li|].
    destruct (Nat.eqb_spec j x) as [->|]; [elim Hx; exact Lj|]. exact HJ.
  - unfold deactivate_layer in E. bauto E. cbn [emit set_k_out set_lsi set_k_ls k_ls].
    unfold nupd. destruct Hx as [_ [_ Hx]].
    destruct (Nat.eqb_spec i x) as [->|]; [elim Hx; exact Li|].
    destruct (Nat.eqb_spec j x) as [->|]; [elim Hx; exact Lj|]. exact HJ.
  - cbn [set_lsi set_k_ls k_ls]. unfold nupd.
    destruct (Nat.eqb_spec i x) as [->|]; destruct (Nat.eqb_spec j x) as [->|]; rewrite ?E1; exact HJ.
  - rewrite !to_layout_active by auto. unfold layer_at, layout in *. rewrite Li, Lj. cbn [is_layout].
    destruct (Nat.eqb_spec i 0); [congruence|]. destruct (Nat.eqb_spec j 0); [congruence|].
    destruct (Nat.eqb_spec i idx); destruct (Nat.eqb_spec j idx); congruence.
Qed.

Lemma history_one_layout c clk k : inv c -> history c clk k -> one_layout k.
Proof.
  intros Hc H. eapply (history_inv one_layout); eauto.
  - exact one_layout_prim.
  - intros k0 c' [_ K] HJ i j. unfold layout, on in *. cbn [k_cfg k_ls set_k_cfg]. rewrite !K. apply HJ.
  - intros k0 k1 Ho HJ. destruct Ho; exact HJ.
  - intros _ i j Hi Hj _ _. unfold on.
    destruct (new_ls c clk i) as [->|[[-> Ei]|[-> Ei]]];
    destruct (new_ls c clk j) as [->|[[-> Ej]|[-> Ej]]]; cbn [l_active zero_lst]; congruence.
Qed.

(* ---- counting the notifications ------------------------------------------------------ *)
Lemma messages_skip i b o r : forallb no_layer o = true -> messages i b (o ++ r) = messages i b r.
Proof.
  induction o as [|x o IH]; cbn [app forallb messages]; auto. intros H.
  apply andb_true_iff in H as [H1 H2]. destruct x; try discriminate; auto.
Qed.
Definition counted (k : kbd) : Prop :=
  forall i, ~ layout (k_cfg k) i ->
    (l_active (k_ls k i) < 256)%N
    /\ ((Z.of_N (l_active (k_ls k i)) - (Z.of_nat (messages i true (k_out k))
         - Z.of_nat (messages i false (k_out k)))) mod 256 = 0)%Z.

Lemma counted_prim k k' : wprim k k' -> wf_config (k_cfg k) -> counted k -> counted k'.
Proof.
  intros Hp Wc HJ i. destruct (wprim_cfg _ _ Hp) as [Ec _]. rewrite Ec. intros Li.
  specialize (HJ i Li).
  destruct Hp as [k l s o Ho|k k' E1 E2 E3 E4 E5 E6|k code x k' Hx E|k x k' Hx E|k x l Hx E1 E2|k idx Hidx].
  - unfold kk. cbn [k_ls k_out set_k_out set_k_ks set_k_last_out]. now rewrite !messages_skip.
  - rewrite E3, E5. exact HJ.
  - unfold activate_layer in E. bauto E.
    cbn [emit set_k_out set_k_cache set_k_clock set_lsi set_k_ls k_ls k_out messages].
    unfold nupd. rewrite (Nat.eqb_sym x i). destruct (Nat.eqb_spec i x) as [->|]; cbn [Bool.eqb andb].
    + cbn [l_active]. destruct HJ as [HJ1 HJ2]. split; [apply N.mod_lt; lia|].
      revert HJ2. generalize (l_active (k_ls k x)), (messages x true (k_out k)), (messages x false (k_out k)).
      intros u v w. Z.to_euclidean_division_equations. lia.
    + cbn [Nat.add]. exact HJ.
  - unfold deactivate_layer in E. bauto E. cbn [emit set_k_out set_lsi set_k_ls k_ls k_out messages].
    unfold nupd. rewrite (Nat.eqb_sym x i). destruct (Nat.eqb_spec i x) as [->|]; cbn [Bool.eqb andb].
    + cbn [l_active set_l_active]. destruct HJ as [HJ1 HJ2]. split; [lia|].
      assert (Hnz : (l_active (k_ls k x) <> 0)%N) by (apply N.eqb_neq; assumption).
      revert HJ2. replace (Z.of_N (l_active (k_ls k x) - 1)) with (Z.of_N (l_active (k_ls k x)) - 1)%Z by lia.
      generalize (Z.of_N (l_active (k_ls k x))), (messages x true (k_out k)), (messages x false (k_out k)).
      intros u v w. Z.to_euclidean_division_equations. lia.
    + cbn [Nat.add]. exact HJ.
  - cbn [set_lsi set_k_ls k_ls k_out]. unfold nupd.
    destruct (Nat.eqb_spec i x) as [->|]; rewrite ?E1; exact HJ.
  - assert (Hl : is_layout (ly_type (layer_at k i)) = false).
    { unfold layer_at, layout in *. destruct (ly_type _); auto; congruence. }
    rewrite !to_layout_active by auto. rewrite Hl.
    replace (if Nat.eqb i 0 then l_active (k_ls k i) else l_active (k_ls k i))
      with (l_active (k_ls k i)) by (destruct (Nat.eqb i 0); reflexivity).
    assert (Hix : Nat.eqb idx i = false).
    { apply Nat.eqb_neq. intros ->. destruct Hidx as [_ [->|Hx]]; [|contradiction].
      apply Li. unfold layout. apply (wf_main _ Wc). }
    assert (Eo : forall b, messages i b (k_out (to_layout k idx)) = messages i b (k_out k)).
    { intros b. unfold to_layout. destruct (fold_drop_shape (seq 1 (nlayers k - 1)) k) as [ls ->].
      destruct (Nat.eqb idx 0); cbn [emit k_out set_k_out set_lsi set_k_ls messages]; rewrite Hix; reflexivity. }
    rewrite !Eo. exact HJ.
Qed.
Lemma history_counted c clk k : inv c -> history c clk k -> counted k.
Proof.
  intros Hc H. eapply (history_inv counted); eauto.
  - exact counted_prim.
  - intros k0 c' [_ K] HJ i. unfold layout in *. cbn [k_cfg k_ls k_out set_k_cfg]. rewrite K. apply HJ.
  - intros k0 k1 Ho HJ. destruct Ho; exact HJ.
  - intros _ i Hl. destruct (new_ls c clk i) as [->|[[-> ->]|[-> Ei]]]; cbn.
    + split; [lia|reflexivity].
    + elim Hl. apply (wf_main _ (proj1 Hc)).
    + elim Hl. apply find_layout_spec in Ei as [_ Ei]. rewrite Nat.sub_0_r in Ei. exact Ei.
Qed.

(* ---- recency ---------------------------------------------------------------------------- *)
Lemma since_skip i o r : forallb no_layer o = true -> since_start i (o ++ r) = since_start i r.
Proof.
  induction o as [|x o IH]; cbn [app forallb since_start]; auto. intros H.
  apply andb_true_iff in H as [H1 H2]. destruct x; try discriminate; auto.
Qed.
Lemma since_le i out : length (since_start i out) <= length out.
Proof.
  induction out as [|x out IH]; cbn [since_start]; auto.
  destruct x as [| j b ind | |]; cbn [length]; try lia. destruct b; [|cbn [length]; lia].
  destruct (Nat.eqb j i); cbn [length]; lia.
Qed.
Lemma layout_dec c i : {layout c i} + {~ layout c i}.
Proof. unfold layout. destruct (ly_type _); auto; right; discriminate. Qed.

Record recent (clk : Z) (k : kbd) : Prop := {
  rc_clock : (clk <= k_clock k)%Z;
  rc_layout : forall i, layout (k_cfg k) i -> (0 <= l_time (k_ls k i) <= 1)%Z
              /\ (i <> 0 -> on k i -> l_time (k_ls k i) = 1%Z) /\ (i = 0 -> l_time (k_ls k i) = 0%Z \/ l_time (k_ls k i) = 1%Z);
  rc_never : forall i, ~ layout (k_cfg k) i -> since_start i (k_out k) = [] -> l_time (k_ls k i) = 0%Z /\ ~ on k i;
  rc_some : forall i, ~ layout (k_cfg k) i -> since_start i (k_out k) <> [] ->
            (clk <= l_time (k_ls k i) < k_clock k)%Z;
  rc_order : forall i j, ~ layout (k_cfg k) i -> ~ layout (k_cfg k) j ->
            since_start i (k_out k) <> [] -> since_start j (k_out k) <> [] ->
            ((l_time (k_ls k i) < l_time (k_ls k j))%Z <-> activated_before (k_out k) i j) }.

Lemma since_head i j b ind out : since_start i (OLayer j b ind :: out) =
  if b && Nat.eqb j i then OLayer j b ind :: out else since_start i out.
Proof. cbn [since_start]. destruct b; reflexivity. Qed.

Lemma recent_prim clk k k' : wprim k k' -> wf_config (k_cfg k) -> recent clk k -> recent clk k'.
Proof.
  intros Hp Wc [R1 R2 R3 R4 R5]. destruct (wprim_cfg _ _ Hp) as [Ec _].
  destruct Hp as [k l s o Ho|k k' E1 E2 E3 E4 E5 E6|k code x k' Hx E|k x k' Hx E|k x l Hx E1 E2|k idx Hidx].
  - constructor; unfold on, activated_before, kk in *;
      cbn [k_ls k_out k_clock k_cfg set_k_out set_k_ks set_k_last_out] in *; intros;
      rewrite ?since_skip in * by auto; auto.
  - constructor; unfold on, activated_before in *; rewrite ?E1, ?E3, ?E4, ?E5 in *; auto.
  - unfold activate_layer in E. bauto E.
    match goal with |- recent _ (emit ?o ?k2) => set (ob := o); set (k2' := k2) end.
    assert (Hox : forall i, since_start i (k_out (emit ob k2'))
                  = if Nat.eqb x i then ob :: k_out k else since_start i (k_out k)).
    { intros i. cbn [emit k_out set_k_out]. subst ob. rewrite since_head. reflexivity. }
    assert (Hls : forall i, k_ls (emit ob k2') i = if Nat.eqb i x then
              mkLst (k_clock k) ((l_active (k_ls k x) + 1) mod 256) (l_toggled (k_ls k x)) (l_depth (k_ls k x))
              else k_ls k i) by reflexivity.
    destruct Hx as [_ [_ Hx]].
    assert (Hne : forall i, layout (k_cfg k) i -> Nat.eqb i x = false).
    { intros i Hi. apply Nat.eqb_neq. intros ->. contradiction. }
    constructor; cbn [k_clock emit set_k_out k2' set_k_cache set_k_clock k_cfg set_lsi set_k_ls].
    + lia.
    + intros i Hi. rewrite Hls, (Hne i Hi). unfold on. rewrite Hls, (Hne i Hi). apply (R2 i Hi).
    + intros i Hi. rewrite Hox. destruct (Nat.eqb_spec x i) as [->|Hn]; [discriminate|].
      intros Hs. unfold on. rewrite !Hls. destruct (Nat.eqb_spec i x); [congruence|]. now apply R3.
    + intros i Hi. rewrite Hox, Hls, (Nat.eqb_sym i x). destruct (Nat.eqb_spec x i) as [->|Hn].
      * intros _. cbn [l_time]. lia.
      * intros Hs. specialize (R4 i Hi Hs). lia.
    + intros i j Hi Hj. unfold activated_before. rewrite !Hox, !Hls, (Nat.eqb_sym i x), (Nat.eqb_sym j x).
      pose proof (since_le i (k_out k)). pose proof (since_le j (k_out k)).
      destruct (Nat.eqb_spec x i) as [Ei|Hni]; destruct (Nat.eqb_spec x j) as [Ej|Hnj]; intros Hs1 Hs2;
        cbn [l_time length].
      * lia.
      * specialize (R4 j Hj Hs2). lia.
      * specialize (R4 i Hi Hs1). lia.
      * now apply R5.
  - unfold deactivate_layer in E. bauto E.
    match goal with |- recent _ (emit ?o ?k2) => set (ob := o); set (k2' := k2) end.
    assert (Hox : forall i, since_start i (k_out (emit ob k2')) = since_start i (k_out k)) by reflexivity.
    assert (Hls : forall i, l_time (k_ls (emit ob k2') i) = l_time (k_ls k i)).
    { intros i. cbn [emit k2' k_ls set_k_out set_lsi set_k_ls]. unfold nupd. destruct (Nat.eqb_spec i x) as [->|]; reflexivity. }
    assert (Hon : forall i, on (emit ob k2') i -> on k i).
    { intros i. unfold on. cbn [emit k2' k_ls set_k_out set_lsi set_k_ls]. unfold nupd.
      destruct (Nat.eqb_spec i x) as [->|]; auto. cbn [l_active set_l_active]. lia. }
    constructor; unfold activated_before; cbn [k_clock emit set_k_out k2' k_cfg set_lsi set_k_ls]; auto.
    + intros i Hi. rewrite Hls. destruct (R2 i Hi) as [A [B C]]. auto.
    + intros i Hi Hs. rewrite Hls. destruct (R3 i Hi Hs) as [A B]. auto.
    + intros i Hi Hs. rewrite Hls. now apply R4.
    + intros i j Hi Hj Hs1 Hs2. rewrite !Hls. now apply R5.
  - assert (Hls : forall i, l_time (k_ls (set_lsi x l k) i) = l_time (k_ls k i)
               /\ l_active (k_ls (set_lsi x l k) i) = l_active (k_ls k i)).
    { intros i. cbn [k_ls set_lsi set_k_ls]. unfold nupd. destruct (Nat.eqb_spec i x) as [->|]; auto. }
    constructor; unfold on, activated_before; cbn [k_clock k_out k_cfg k_ls set_lsi set_k_ls]; auto.
    + intros i Hi. destruct (Hls i) as [L1 L2]. cbn [set_lsi set_k_ls k_ls] in L1, L2. rewrite L1, L2. now apply R2.
    + intros i Hi Hs. destruct (Hls i) as [L1 L2]. cbn [set_lsi set_k_ls k_ls] in L1, L2. rewrite L1, L2. now apply R3.
    + intros i Hi Hs. destruct (Hls i) as [L1 L2]. cbn [set_lsi set_k_ls k_ls] in L1, L2. rewrite L1. now apply R4.
    + intros i j Hi Hj Hs1 Hs2. destruct (Hls i) as [L1 _]. destruct (Hls j) as [L2 _].
      cbn [set_lsi set_k_ls k_ls] in L1, L2. rewrite L1, L2. now apply R5.
  - assert (Ht : forall i, l_time (k_ls (to_layout k idx) i)
         = if Nat.eqb i idx && negb (Nat.eqb idx 0) then 1%Z else l_time (k_ls k i)).
    { intros i. unfold to_layout. cbn [emit set_k_out k_ls].
      assert (G : forall l k0 i, l_time (k_ls (fold_left drop_layout l k0) i) = l_time (k_ls k0 i)).
      { clear. induction l as [|y l IH]; intros k0 i; auto. cbn [fold_left]. rewrite IH.
        unfold drop_layout. destruct (is_layout _); auto. cbn [set_lsi set_k_ls k_ls]. unfold nupd.
        destruct (Nat.eqb_spec i y) as [->|]; auto. }
      destruct (Nat.eqb_spec idx 0) as [->|Hz]; cbn [negb]; rewrite ?andb_false_r, ?andb_true_r.
      - apply G.
      - cbn [set_lsi set_k_ls k_ls]. unfold nupd. destruct (Nat.eqb_spec i idx) as [->|]; auto. }
    assert (Hlay : layout (k_cfg k) idx).
    { destruct Hidx as [_ [->|H]]; auto. apply (wf_main _ Wc). }
    assert (Hnl : forall i, ~ layout (k_cfg k) i -> Nat.eqb i idx = false).
    { intros i Hi. apply Nat.eqb_neq. intros ->. contradiction. }
    assert (Hc : k_clock (to_layout k idx) = k_clock k).
    { unfold to_layout. destruct (fold_drop_shape (seq 1 (nlayers k - 1)) k) as [ls ->].
      destruct (Nat.eqb idx 0); reflexivity. }
    assert (Hs : forall i, ~ layout (k_cfg k) i ->
       since_start i (k_out (to_layout k idx)) = since_start i (k_out k)).
    { intros i Hi. unfold to_layout. destruct (fold_drop_shape (seq 1 (nlayers k - 1)) k) as [ls ->].
      destruct (Nat.eqb idx 0); cbn [emit k_out set_k_out set_lsi set_k_ls]; rewrite since_head,
        (Nat.eqb_sym idx i), (Hnl i Hi); reflexivity. }
    assert (Ha := fun i => to_layout_active k idx i Hidx).
    constructor; rewrite ?Ec, ?Hc; auto.
    + intros i Hi. rewrite Ht. destruct (R2 i Hi) as [A [B C]]. unfold on in *. rewrite Ha.
      unfold layer_at. unfold layout in Hi. rewrite Hi. cbn [is_layout].
      destruct (Nat.eqb_spec i 0) as [->|Hz].
      * destruct (Nat.eqb_spec 0 idx) as [<-|]; cbn [andb negb Nat.eqb]; split; auto.
      * destruct (Nat.eqb_spec i idx) as [->|Hd]; cbn [andb].
        -- destruct (Nat.eqb_spec idx 0); [congruence|]. cbn [negb]. repeat split; auto; lia.
        -- split; [lia|]. split; [congruence|auto].
    + intros i Hi. rewrite Hs, Ht, (Hnl i Hi) by auto. cbn [andb]. unfold on in *. rewrite Ha.
      intros G. destruct (R3 i Hi G) as [A B]. split; auto.
      destruct (Nat.eqb i 0); auto. unfold layer_at.
      destruct (is_layout _) eqn:El; auto. apply is_layout_spec in El. contradiction.
    + intros i Hi. rewrite Hs, Ht, (Hnl i Hi) by auto. cbn [andb]. auto.
    + intros i j Hi Hj. unfold activated_before. rewrite !Hs, !Ht, (Hnl i Hi), (Hnl j Hj) by auto.
      cbn [andb]. apply R5; auto.
Qed.

Lemma history_recent c clk k : inv c -> history c clk k -> recent clk k.
Proof.
  intros Hc H. eapply (history_inv (recent clk)); eauto.
  - apply recent_prim.
  - intros k0 c' [_ K] [R1 R2 R3 R4 R5].
    assert (Hl : forall i, layout c' i <-> layout (k_cfg k0) i) by (intros i; unfold layout; now rewrite K).
    constructor; unfold on in *; cbn [k_cfg k_clock k_ls k_out set_k_cfg]; auto; intros;
      rewrite ?Hl in *; auto.
  - intros k0 k1 Ho R. destruct Ho as [t Ht|x y]; [|destruct R; constructor; auto].
    destruct R as [R1 R2 R3 R4 R5]. constructor; cbn [k_cfg k_clock k_ls k_out set_k_clock]; auto; [lia|].
    intros i Hi Hs. specialize (R4 i Hi Hs). lia.
  - intros Hclk. constructor.
    + cbn. lia.
    + intros i Hi. unfold on. destruct (new_ls c clk i) as [->|[[-> ->]|[-> Ei]]]; cbn; repeat split; auto; lia || congruence.
    + intros i Hi _. unfold on. destruct (new_ls c clk i) as [->|[[-> ->]|[-> Ei]]]; cbn.
      * auto.
      * elim Hi. apply (wf_main _ (proj1 Hc)).
      * elim Hi. apply find_layout_spec in Ei as [_ Ei]. rewrite Nat.sub_0_r in Ei. exact Ei.
    + intros i Hi Hs. elim Hs. reflexivity.
    + intros i j Hi Hj Hs. elim Hs. reflexivity.
Qed.

(* ---- concrete histories for examples ------------------------------------------------- *)
Inductive op := Ev (evs : list kev) | Bind (exp : str).
Definition strikingb (k : kbd) : bool :=
  match h_state (k_chord k) with CsDisambiguation | CsHold => true | _ => false end.
Fixpoint run_ops (k : kbd) (ops : list op) : option kbd :=
  match ops with
  | [] => Some k
  | Ev evs :: r => match kbd_process_events 200 k evs with Ok (k', _) => run_ops k' r | _ => None end
  | Bind e :: r =>
      if strikingb k then None
      else match kbd_eval k e with Ok (k', _) => run_ops k' r | _ => None end
  end.
Definition check_hist (clk : Z) (c : config) (ops : list op) (f : kbd -> bool) : bool :=
  (1 <=? clk)%Z && match run_ops (new_keyboard c clk) ops with Some k => f k | None => false end.
Lemma run_ops_history c clk ops : forall k k', history c clk k -> run_ops k ops = Some k' -> history c clk k'.
Proof.
  induction ops as [|[evs|e] r IH]; cbn [run_ops]; intros k k' Hk H.
  - now injection H as <-.
  - destruct (kbd_process_events 200 k evs) as [[k1 t]| | |] eqn:E; try discriminate.
    eapply IH; [|exact H]. eapply hi_events; eauto.
  - destruct (strikingb k) eqn:Es; [discriminate|].
    destruct (kbd_eval k e) as [[k1 t]| | |] eqn:E; try discriminate.
    eapply IH; [|exact H]. eapply hi_eval; eauto.
    unfold striking, strikingb in *. intros [G|G]; rewrite G in Es; discriminate.
Qed.
Lemma check_hist_ok clk c ops f : check_hist clk c ops f = true ->
  exists k, history c clk k /\ f k = true.
Proof.
  unfold check_hist. intros H. apply andb_true_iff in H as [H1 H2].
  destruct (run_ops _ _) as [k|] eqn:E; [|discriminate].
  exists k. split; auto. eapply run_ops_history; [|exact E]. apply hi_init. lia.
Qed.
(* an abnormal stop *)
Definition stopb {A} (r : res A) (x : crash) : bool :=
  match r with
  | Crash c => match c, x with
      | CChordQueue, CChordQueue | CPendingQueue, CPendingQueue | CTimeouts, CTimeouts
      | CActiveChords, CActiveChords | CLayerInactive, CLayerInactive => true
      | _, _ => false end
  | _ => false end.
Lemma stopb_ok {A} (r : res A) x : stopb r x = true -> r = Crash x.
Proof. destruct r as [a|c| |]; try discriminate. destruct c, x; try discriminate; reflexivity. Qed.
Definition ubb {A} (r : res A) : bool := match r with UB => true | _ => false end.
Lemma ubb_ok {A} (r : res A) : ubb r = true -> r = UB.
Proof. destruct r; try discriminate; reflexivity. Qed.
(* the text parses, to [cfg_of] *)
Definition parsesb (text : str) : bool := match config_parse text with Ok (Some _) => true | _ => false end.
Lemma parsesb_ok text : parsesb text = true -> config_parse text = Ok (Some (cfg_of text)).
Proof. unfold parsesb, cfg_of. destruct (config_parse text) as [[c|]| | |]; try discriminate; reflexivity. Qed.

(* the same without the restriction on binds *)
Fixpoint run_any (k : kbd) (ops : list op) : option kbd :=
  match ops with
  | [] => Some k
  | Ev evs :: r => match kbd_process_events 200 k evs with Ok (k', _) => run_any k' r | _ => None end
  | Bind e :: r => match kbd_eval k e with Ok (k', _) => run_any k' r | _ => None end
  end.
Definition check_any (clk : Z) (c : config) (ops : list op) (f : kbd -> bool) : bool :=
  (1 <=? clk)%Z && match run_any (new_keyboard c clk) ops with Some k => f k | None => false end.
Lemma run_any_reach c ops : forall k k', reach (fun _ => True) c k ->
  run_any k ops = Some k' -> reach (fun _ => True) c k'.
Proof.
  induction ops as [|[evs|e] r IH]; cbn [run_any]; intros k k' Hk H.
  - now injection H as <-.
  - destruct (kbd_process_events 200 k evs) as [[k1 t]| | |] eqn:E; try discriminate.
    eapply IH; [|exact H]. eapply reach_events; eauto.
  - destruct (kbd_eval k e) as [[k1 t]| | |] eqn:E; try discriminate.
    eapply IH; [|exact H]. eapply reach_eval; eauto.
Qed.
Lemma check_any_ok clk c ops f : check_any clk c ops f = true ->
  exists k, reach (fun _ => True) c k /\ f k = true.
Proof.
  unfold check_any. intros H. apply andb_true_iff in H as [H1 H2].
  destruct (run_any _ _) as [k|] eqn:E; [|discriminate].
  exists k. split; auto. eapply run_any_reach; [|exact E]. apply reach_init; auto. lia.
Qed.
