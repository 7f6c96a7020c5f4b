(* Proofs of C01, C02. *)
From Verif Require Import Base Lib Keys Types MacroExec Kbd Config Steps Hist Outside SpecTrace.
Local Open Scope N_scope.

Lemma key_history_cons code o out :
  key_history code (o :: out) =
  key_history code out ++
    match o with OKey c p => if c =? code then [p] else [] | _ => [] end.
Proof.
  unfold key_history. cbn [rev]. rewrite flat_map_app. cbn [flat_map].
  now rewrite app_nil_r.
Qed.
Lemma key_history_app code o out :
  key_history code (o ++ out) = key_history code out ++ key_history code o.
Proof. unfold key_history. now rewrite rev_app_distr, flat_map_app. Qed.

Lemma alternates_app n l x :
  alternates n l -> x = (if Nat.even (length l) then n else negb n) -> alternates n (l ++ [x]).
Proof.
  revert n; induction l as [|b l IH]; intros n; cbn [app alternates length]; intros H Hx.
  - cbn in Hx. subst. auto.
  - destruct H as [-> H]. split; auto. apply IH; auto.
    subst x. rewrite Nat.even_succ, <- Nat.negb_even. destruct (Nat.even (length l)); cbn;
      [reflexivity|now rewrite negb_involutive].
Qed.

(* the trace of a key alternates and the key table is its current position *)
Definition key_ok (code : N) (k : kbd) : Prop :=
  alternates true (key_history code (k_out k))
  /\ k_ks k code = negb (Nat.even (length (key_history code (k_out k)))).

Lemma key_ok_emit code k s p :
  key_ok code k -> k_ks k s <> p ->
  key_ok code (emit (OKey s p) (set_k_ks (fupd (k_ks k) s p) k)).
Proof.
  intros [H1 H2] Hp. unfold key_ok; cbn [emit k_out set_k_out set_k_ks k_ks].
  rewrite key_history_cons. destruct (N.eqb_spec s code) as [->|Hn].
  - rewrite fupd_same. split.
    + apply alternates_app; auto. rewrite H2 in Hp.
      destruct (Nat.even _), p; cbn in *; congruence.
    + rewrite app_length, Nat.add_1_r, Nat.even_succ, <- Nat.negb_even, negb_involutive.
      rewrite H2 in Hp. destruct (Nat.even _), p; cbn in *; congruence.
  - rewrite app_nil_r, fupd_other by congruence. auto.
Qed.

Lemma key_ok_same code k k' :
  k_out k' = k_out k -> k_ks k' = k_ks k -> key_ok code k -> key_ok code k'.
Proof. unfold key_ok. now intros -> ->. Qed.

Lemma key_ok_other code k k' o :
  k_out k' = o ++ k_out k -> key_history code o = [] -> k_ks k' = k_ks k ->
  key_ok code k -> key_ok code k'.
Proof.
  unfold key_ok. intros -> Ho ->. now rewrite key_history_app, Ho, app_nil_r.
Qed.

(* a macro emits only keys it names *)
Lemma mexec_names t m : forall held code p,
  In (OKey code p) (mexec t held m) ->
  (exists e, In e m /\ element_names e code)
  \/ (exists es e, held = Some es /\ In e es /\ element_names e code).
Proof.
  induction m as [|e m IH]; cbn [mexec]; intros held code p H; [contradiction|].
  rewrite !in_app_iff in H. destruct H as [H|[H|H]].
  - assert (G : element_names e code \/
       (exists es e0, held = Some es /\ In e0 es /\ element_names e0 code)).
    { destruct (m_type e) eqn:Et.
      - left. unfold mexec_keyseq in H. rewrite !in_app_iff in H.
        destruct H as [H|[H|[H|H]]].
        + apply in_map_iff in H as [[mask c] [H1 H2]]. cbn in H1. injection H1 as -> ?.
          apply filter_In in H2 as [H2 H3]. right; left. split; auto. exists mask; auto.
        + destruct (_ && _); [|contradiction]. destruct H as [H|[]]; discriminate.
        + left. destruct H as [H|[H|[]]]; congruence.
        + apply in_map_iff in H as [[mask c] [H1 H2]]. cbn in H1. injection H1 as -> ?.
          apply filter_In in H2 as [H2 H3]. right; left. split; auto. exists mask; auto.
      - left; left. destruct H as [H|[]]; congruence.
      - right. destruct held as [es|]; [|contradiction].
        apply in_map_iff in H as [e0 [H1 H2]]. exists es, e0. repeat split; auto.
        left; congruence.
      - left. right; right. split; auto. apply in_flat_map in H as [c [H1 H2]].
        destruct H2 as [H2|[H2|[]]]; congruence.
      - destruct H as [H|[]]; discriminate. }
    destruct G as [G|G]; [left; exists e; cbn; auto|right; exact G].
  - destruct (negb _); [|contradiction]. destruct H as [H|[]]; discriminate.
  - apply IH in H as [[e0 [H1 H2]]|[es [e0 [H1 [H2 H3]]]]].
    + left. exists e0. cbn; auto.
    + destruct (m_type e), held as [es0|]; try discriminate; injection H1 as <-;
        try (apply in_app_iff in H2 as [H2|[<-|[]]]); try (destruct H2 as [<-|[]]);
        try (right; eexists _, e0; repeat split; eauto; fail);
        left; eexists; cbn; eauto.
Qed.

Lemma macro_execute_names t m code p :
  In (OKey code p) (macro_execute m t) -> exists e, In e m /\ element_names e code.
Proof.
  intros H. apply mexec_names in H as [H|[es [e [H _]]]]; auto. discriminate.
Qed.

Lemma key_history_none code o :
  (forall p, ~ In (OKey code p) o) -> key_history code o = [].
Proof.
  intros H. unfold key_history.
  assert (G : forall p, ~ In (OKey code p) (rev o)).
  { intros p Hi. apply in_rev in Hi. eapply H; eauto. }
  clear H. induction (rev o) as [|a l IH]; auto. cbn.
  rewrite IH by (intros p Hi; eapply G; cbn; eauto).
  destruct a; auto. destruct (N.eqb_spec code0 code); auto.
  subst. exfalso. eapply G; cbn; eauto.
Qed.

Lemma single_keyseq_multi m : single_keyseq m = false -> multi_step m.
Proof. intros H [d ->]. discriminate. Qed.

Lemma macro_history k m code :
  macros_avoid code (k_cfg k) -> cfg_macro (k_cfg k) m -> single_keyseq m = false ->
  forall t, key_history code (rev (macro_execute m t)) = [].
Proof.
  intros Ha Hm Hs t. apply key_history_none. intros p Hi. apply in_rev in Hi.
  apply macro_execute_names in Hi as [e [He Hn]].
  destruct Hm as [->|Hm]; [contradiction|].
  eapply Ha; eauto using single_keyseq_multi.
Qed.

Lemma prim_key_ok code k k' :
  macros_avoid code (k_cfg k) -> prim k k' -> key_ok code k -> key_ok code k'.
Proof.
  intros Ha Hp Hk. destruct Hp.
  - destruct H as [_ [_ [H1 [H2 _]]]]. eapply key_ok_same; eauto.
  - unfold send_key. destruct (_ || _); auto.
    assert (G : forall k1, k_out k1 = k_out k -> k_ks k1 = k_ks k ->
      key_ok code (if eqb (k_ks k1 c) p then k1
                   else emit (OKey c p) (set_k_ks (fupd (k_ks k1) c p) k1))).
    { intros k1 Ho Hs. pose proof (key_ok_same code k k1 Ho Hs Hk) as Hk1.
      destruct (eqb _ _) eqn:E; auto. apply key_ok_emit; auto.
      intros E1. rewrite E1, eqb_reflx in E. discriminate. }
    destruct p; apply G; reflexivity.
  - assert (E : key_ok code (emit (OKey c false) (set_k_ks (fupd (k_ks k) c false) k))).
    { apply key_ok_emit; auto. congruence. }
    exact E.
  - eapply key_ok_other with (k := k); try reflexivity; auto.
    eapply macro_history; eauto.
  - eapply key_ok_other with (k := k) (o := [OCmd s]); auto; reflexivity.
  - unfold activate_layer in H. bauto H.
    eapply key_ok_other with (k := k) (o := [OLayer i true _]); auto; reflexivity.
  - unfold deactivate_layer in H. bauto H.
    eapply key_ok_other with (k := k) (o := [OLayer i false _]); auto; reflexivity.
  - unfold drop_layout. destruct (is_layout _); auto.
  - eapply key_ok_other with (k := k) (o := [OLayer i true _]); auto; reflexivity.
  - eapply key_ok_other with (k := k) (o := [OLayer i true _]); auto; reflexivity.
Qed.

Lemma alternation c code k :
  reach (macros_avoid code) c k -> alternates true (key_history code (k_out k)).
Proof.
  intros H.
  assert (G : key_ok code k).
  { apply (reach_ind_steps (macros_avoid code) c (key_ok code)); auto.
    - intros clk _. split; cbn; auto.
    - intros; eapply prim_key_ok; eauto.
    - intros a b Ho X. destruct Ho; exact X. }
  apply G.
Qed.

(* C02 *)
Definition silent (code : N) (k : kbd) : Prop :=
  k_ks k code = false /\ forall p, ~ In (OKey code p) (k_out k).

Lemma prim_silent code k k' :
  code = K_NOOP \/ code = K_EXTERNAL_MOUSE ->
  macros_avoid code (k_cfg k) -> prim k k' -> silent code k -> silent code k'.
Proof.
  intros Hc Ha Hp [Hk Ho]. destruct Hp.
  - destruct H as [_ [_ [H1 [H2 _]]]]. unfold silent. now rewrite H1, H2.
  - unfold send_key. destruct (_ || _) eqn:E; [split; auto|].
    assert (Hne : c <> code).
    { intros ->. destruct Hc; subst; cbn in E; discriminate. }
    assert (G : forall k1, k_out k1 = k_out k -> k_ks k1 = k_ks k ->
      silent code (if eqb (k_ks k1 c) p then k1
                   else emit (OKey c p) (set_k_ks (fupd (k_ks k1) c p) k1))).
    { intros k1 Ho1 Hs1. unfold silent.
      destruct (eqb _ _); cbn; rewrite ?Ho1, ?Hs1; auto.
      rewrite fupd_other by congruence. split; auto.
      intros p0 [Hi|Hi]; [congruence|eapply Ho; eauto]. }
    destruct p; apply G; reflexivity.
  - assert (c <> code) by congruence.
    split; cbn. now rewrite fupd_other by congruence.
    intros p [Hi|Hi]; [congruence|eapply Ho; eauto].
  - split; auto. cbn. intros p Hi. apply in_app_iff in Hi as [Hi|Hi]; [|eapply Ho; eauto].
    apply in_rev in Hi. apply macro_execute_names in Hi as [e [He Hn]].
    destruct H as [->|Hm]; [contradiction|]. eapply Ha; eauto using single_keyseq_multi.
  - split; auto. cbn. intros p [Hi|Hi]; [congruence|eapply Ho; eauto].
  - unfold activate_layer in H. bauto H. split; auto.
    cbn. intros p [Hi|Hi]; [congruence|eapply Ho; eauto].
  - unfold deactivate_layer in H. bauto H. split; auto.
    cbn. intros p [Hi|Hi]; [congruence|eapply Ho; eauto].
  - unfold drop_layout. destruct (is_layout _); split; auto.
  - split; auto. cbn. intros p [Hi|Hi]; [congruence|eapply Ho; eauto].
  - split; auto. cbn. intros p [Hi|Hi]; [congruence|eapply Ho; eauto].
Qed.

Lemma never_sent c code k p :
  code = K_NOOP \/ code = K_EXTERNAL_MOUSE ->
  reach (macros_avoid code) c k -> ~ In (OKey code p) (k_out k).
Proof.
  intros Hc H.
  assert (G : silent code k).
  { apply (reach_ind_steps (macros_avoid code) c (silent code)); auto.
    - intros clk _. split; cbn; auto.
    - intros; eapply prim_silent; eauto.
    - intros a b Ho X. destruct Ho; exact X. }
  apply G.
Qed.
