(* Exact effect of the engine's functions on the layer state. *)
From Verif Require Import Base Lib Keys Types MacroExec Kbd SpecMods ModsProofs Engine SpecWf Wf.

(* layer state replaced, trace extended *)
Definition lsn (ls : nat -> lst) (notes : list oev) (k : kbd) : kbd :=
  set_k_out (notes ++ k_out k) (set_k_ls ls k).
Definition off_note (o : oev) : bool := match o with OLayer _ false _ => true | _ => false end.

Lemma lsn_id k : lsn (k_ls k) [] k = k.
Proof. destruct k; reflexivity. Qed.
Lemma lsn_lsn ls ns ls' ns' k : lsn ls ns (lsn ls' ns' k) = lsn ls (ns ++ ns') k.
Proof. unfold lsn. cbn [k_out set_k_out set_k_ls]. rewrite app_assoc. reflexivity. Qed.

Lemma deactivate_ok k i k' : deactivate_layer k i = Ok k' ->
  l_active (k_ls k i) <> 0%N
  /\ exists b, k' = lsn (nupd (k_ls k) i (set_l_active (l_active (k_ls k i) - 1) (k_ls k i))) [OLayer i false b] k.
Proof.
  unfold deactivate_layer. intros H. bauto H. split; [lia|]. eexists. reflexivity.
Qed.
Lemma activate_ok k code i k' : activate_layer k code i = Ok k' ->
  exists b, k' = set_k_cache (set_ce_layer (k_cache k) code i) (set_k_clock (k_clock k + 1)%Z
    (lsn (nupd (k_ls k) i (mkLst (k_clock k) ((l_active (k_ls k i) + 1) mod 256) (l_toggled (k_ls k i)) (l_depth (k_ls k i))))
         [OLayer i true b] k)).
Proof. unfold activate_layer. intros H. bauto H. eexists. reflexivity. Qed.

Lemma drop_oneshots_ok n : forall k i k', drop_oneshots n k i = Ok k' ->
  exists ls notes, k' = lsn ls notes k /\ forallb off_note notes = true
    /\ (forall j, j <> i -> ls j = k_ls k j)
    /\ (N.of_nat n <= l_active (k_ls k i))%N
    /\ ls i = mkLst (l_time (k_ls k i)) (l_active (k_ls k i) - N.of_nat n) (l_toggled (k_ls k i))
                    (l_depth (k_ls k i) - N.of_nat n).
Proof.
  induction n as [|n IH]; cbn [drop_oneshots]; intros k i k' H.
  - injection H as <-. exists (k_ls k), []. rewrite lsn_id. repeat split; auto; try lia.
    destruct (k_ls k i); cbn. f_equal; lia.
  - bstep H k1 E. apply deactivate_ok in E as [Ha [b ->]].
    apply IH in H as [ls [ns [-> [H1 [H2 [H3 H4]]]]]].
    set (l1 := nupd (k_ls k) i (set_l_active (l_active (k_ls k i) - 1) (k_ls k i))) in *.
    assert (E1 : forall x, set_lsi i x (lsn l1 [OLayer i false b] k)
                 = lsn (nupd l1 i x) [OLayer i false b] k) by reflexivity.
    rewrite E1 in *. rewrite lsn_lsn. exists ls, (ns ++ [OLayer i false b]). split; auto.
    cbn [k_ls lsn set_k_out set_k_ls] in H2, H3, H4. rewrite !nupd_same in H3, H4.
    subst l1. rewrite !nupd_same in H3, H4. cbn [l_active l_time l_toggled l_depth set_l_depth set_l_active] in *.
    split; [rewrite forallb_app, H1; auto|]. split; [|split].
    + intros j Hj. rewrite H2 by auto. now rewrite !nupd_other by auto.
    + lia.
    + rewrite H4. f_equal; lia.
Qed.

Definition cleared (l : lst) : lst := mkLst (l_time l) (l_active l - l_depth l) (l_toggled l) 0.

Lemma clear_oneshot_layers_ok l : forall k k', NoDup l -> clear_oneshot_layers l k = Ok k' ->
  exists ls notes, k' = lsn ls notes k /\ forallb off_note notes = true
    /\ (forall j, In j l -> ls j = cleared (k_ls k j) /\ (l_depth (k_ls k j) <= l_active (k_ls k j))%N)
    /\ (forall j, ~ In j l -> ls j = k_ls k j).
Proof.
  induction l as [|i l IH]; cbn [clear_oneshot_layers]; intros k k' Hn H.
  - injection H as <-. exists (k_ls k), []. rewrite lsn_id. repeat split; auto; contradiction.
  - inversion Hn as [|? ? Hni Hnl]; subst. bstep H k1 E.
    apply drop_oneshots_ok in E as [ls1 [n1 [-> [A1 [A2 [A3 A4]]]]]].
    apply IH in H as [ls2 [n2 [-> [B1 [B2 B3]]]]]; auto.
    rewrite lsn_lsn. exists ls2, (n2 ++ n1). split; auto.
    split; [now rewrite forallb_app, A1, B1|]. cbn [k_ls lsn set_k_out set_k_ls] in *.
    rewrite N2Nat.id in *. split.
    + intros j [<-|Hj].
      * rewrite B3 by auto. rewrite A4. split; auto. unfold cleared. f_equal; lia.
      * assert (j <> i) by congruence. destruct (B2 j Hj) as [B4 B5]. rewrite B4.
        rewrite (A2 j) in * by auto. auto.
    + intros j Hj. rewrite B3 by (intros ?; apply Hj; now right). apply A2. intros ->. apply Hj. now left.
Qed.

Lemma clear_oneshot_ok k k' : clear_oneshot k = Ok k' ->
  exists ls notes, k' = set_k_oneshot_to 0%Z (set_k_latch false (lsn ls notes k))
    /\ forallb off_note notes = true
    /\ (forall i, i < nlayers k -> ls i = cleared (k_ls k i) /\ (l_depth (k_ls k i) <= l_active (k_ls k i))%N)
    /\ (forall i, nlayers k <= i -> ls i = k_ls k i).
Proof.
  unfold clear_oneshot. intros H. bstep H k1 E. injection H as <-.
  apply clear_oneshot_layers_ok in E as [ls [ns [-> [A1 [A2 A3]]]]]; [|apply seq_NoDup].
  exists ls, ns. split; auto. split; auto. split.
  - intros i Hi. apply A2. apply in_seq. lia.
  - intros i Hi. apply A3. rewrite in_seq. lia.
Qed.

Definition untoggled (l : lst) : lst :=
  if l_toggled l then mkLst (l_time l) (l_active l - 1) false (l_depth l) else l.

Lemma clear_toggled_ok l : forall k k', NoDup l -> clear_toggled l k = Ok k' ->
  exists ls notes, k' = lsn ls notes k /\ forallb off_note notes = true
    /\ (forall j, In j l -> is_layout (ly_type (layer_at k j)) = false ->
          ls j = untoggled (k_ls k j) /\ (l_toggled (k_ls k j) = true -> l_active (k_ls k j) <> 0%N))
    /\ (forall j, ~ In j l \/ is_layout (ly_type (layer_at k j)) = true -> ls j = k_ls k j).
Proof.
  induction l as [|i l IH]; cbn [clear_toggled]; intros k k' Hn H.
  - injection H as <-. exists (k_ls k), []. rewrite lsn_id. repeat split; auto; contradiction.
  - inversion Hn as [|? ? Hni Hnl]; subst. bstep H k1 E.
    destruct (negb (is_layout (ly_type (layer_at k i))) && l_toggled (k_ls k i)) eqn:Eb.
    + apply andb_true_iff in Eb as [Eb1 Eb2]. apply negb_true_iff in Eb1.
      apply deactivate_ok in E as [Ha [b ->]].
      set (l1 := nupd (k_ls k) i (set_l_toggled false (k_ls k i))) in *.
      assert (E1 : forall x, lsn x [OLayer i false b] (set_lsi i (set_l_toggled false (k_ls k i)) k)
                   = lsn x [OLayer i false b] k) by reflexivity.
      rewrite E1 in *. apply IH in H as [ls [ns [-> [B1 [B2 B3]]]]]; auto.
      rewrite lsn_lsn. exists ls, (ns ++ [OLayer i false b]). split; auto.
      split; [rewrite forallb_app, B1; auto|].
      cbn [k_ls lsn set_k_out set_k_ls set_lsi] in *. fold l1 in Ha, B2, B3.
      assert (L1 : l1 i = set_l_toggled false (k_ls k i)) by (subst l1; now rewrite nupd_same).
      assert (L2 : forall j, j <> i -> l1 j = k_ls k j) by (intros j Hj; subst l1; now rewrite nupd_other).
      split.
      * intros j [<-|Hj] Hl.
        -- rewrite B3 by auto. rewrite nupd_same, L1. unfold untoggled. rewrite Eb2.
           split; [reflexivity|]. intros _. rewrite L1 in Ha. exact Ha.
        -- assert (j <> i) by congruence. destruct (B2 j Hj Hl) as [B4 B5]. rewrite B4.
           rewrite (nupd_other l1) in * by auto. rewrite L2 in * by auto. auto.
      * intros j Hj. destruct (Nat.eq_dec j i) as [->|Hne].
        -- destruct Hj as [Hj|Hj]; [elim Hj; now left|]. congruence.
        -- rewrite B3; [now rewrite nupd_other, L2 by auto|].
           destruct Hj as [Hj|Hj]; [left; intros ?; apply Hj; now right|now right].
    + injection E as <-. apply IH in H as [ls [ns [-> [B1 [B2 B3]]]]]; auto.
      exists ls, ns. split; auto. split; auto. split.
      * intros j [<-|Hj] Hl; [|now apply B2].
        rewrite B3 by auto. rewrite Hl in Eb. cbn in Eb. unfold untoggled. rewrite Eb. split; auto. congruence.
      * intros j Hj. apply B3. destruct Hj as [Hj|Hj]; [left; intros ?; apply Hj; now right|now right].
Qed.

Lemma clear_ok k k' : clear k = Ok k' ->
  exists ls notes,
    k' = reset_keystate (set_k_amacro None (set_k_oneshot_to 0%Z (set_k_latch false (lsn ls notes k))))
    /\ forallb off_note notes = true
    /\ (forall i, i < nlayers k -> (l_depth (k_ls k i) <= l_active (k_ls k i))%N
         /\ (i <> 0 -> is_layout (ly_type (layer_at k i)) = false ->
             ls i = untoggled (cleared (k_ls k i))
             /\ (l_toggled (k_ls k i) = true -> (l_depth (k_ls k i) < l_active (k_ls k i))%N))
         /\ (i = 0 \/ is_layout (ly_type (layer_at k i)) = true -> ls i = cleared (k_ls k i)))
    /\ (forall i, nlayers k <= i -> ls i = k_ls k i).
Proof.
  unfold clear. intros H. bstep H k1 E1. bstep H k2 E2. apply Ok_inj in H. subst k'.
  apply clear_oneshot_ok in E1 as [ls1 [n1 [-> [A1 [A2 A3]]]]].
  apply clear_toggled_ok in E2 as [ls2 [n2 [-> [B1 [B2 B3]]]]]; [|apply seq_NoDup].
  exists ls2, (n2 ++ n1). split.
  { f_equal. unfold lsn. cbn [k_out set_k_out set_k_ls set_k_latch set_k_oneshot_to set_k_amacro].
    rewrite app_assoc. reflexivity. }
  split; [now rewrite forallb_app, A1, B1|].
  unfold layer_at, nlayers in *.
  cbn [k_ls k_cfg lsn set_k_out set_k_ls set_k_latch set_k_oneshot_to] in *. split.
  - intros i Hi. destruct (A2 i Hi) as [A4 A5]. split; auto. split.
    + intros Hz Hl. destruct (B2 i) as [B4 B5]; auto.
      { apply in_seq. lia. }
      rewrite A4 in *. split; auto. cbn [l_toggled l_active cleared] in B5. intros Ht. specialize (B5 Ht). lia.
    + intros Hz. rewrite B3; auto. destruct Hz as [->|Hz]; [left; rewrite in_seq; lia|now right].
  - intros i Hi. rewrite B3; auto. left. rewrite in_seq. lia.
Qed.

Lemma reset_keystate_ks k : forall c, (c < 256)%N -> k_ks (reset_keystate k) c = false.
Proof.
  unfold reset_keystate.
  assert (G : forall l k c, (k_ks k c = false \/ In (N.to_nat c) l) ->
              k_ks (fold_left reset_key l k) c = false).
  { induction l as [|x l IH]; cbn [fold_left]; intros k0 c H.
    - destruct H; [auto|contradiction].
    - apply IH. unfold reset_key. destruct H as [H|[->|H]]; auto.
      + left. destruct (k_ks k0 (N.of_nat x)); auto. cbn [k_ks set_k_ks emit]. unfold fupd.
        destruct (_ =? _)%N; auto.
      + left. rewrite N2Nat.id. destruct (k_ks k0 c) eqn:E; auto.
        cbn [k_ks set_k_ks emit]. unfold fupd. now rewrite N.eqb_refl. }
  intros c Hc. apply G. right. apply in_seq. lia.
Qed.
