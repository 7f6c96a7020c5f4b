(* Device ids and the choice of a configuration: the proofs behind C39 and part of C40. *)
From Coq Require Import String Lia.
From Verif Require Import Base Lib KeyTable Keys Types Str MacroParse Ini Config Match SpecText TextProofs ParseWf ParseFrame ParseTotal.
Local Open Scope list_scope.
Local Open Scope N_scope.
Local Notation length := List.length.

(* ---- the sections of a text are determined ------------------------------------------- *)
Lemma header_inj n m : header n = header m -> n = m.
Proof. unfold header. intros H. injection H as H. now apply app_inj_tail in H. Qed.
Definition no_header (l : str) : Prop := forall n, l <> header n.
Lemma split_headers : forall a b a' b', Forall no_header a -> Forall no_header a' ->
  (b = [] \/ exists n r, b = header n :: r) -> (b' = [] \/ exists n r, b' = header n :: r) ->
  a ++ b = a' ++ b' -> a = a' /\ b = b'.
Proof.
  induction a as [|x a IH]; intros b a' b' F F' Hb Hb' E.
  - destruct a' as [|y a']; [auto|]. cbn [app] in E. subst b. destruct Hb as [Hb|[n [r Hb]]]; [discriminate|].
    injection Hb as -> _. apply Forall_inv in F'. now destruct (F' n).
  - destruct a' as [|y a'].
    + cbn [app] in E. subst b'. destruct Hb' as [Hb'|[n [r Hb']]]; [discriminate|]. injection Hb' as -> _. apply Forall_inv in F. now destruct (F n).
    + injection E as -> E. apply Forall_inv_tail in F, F'. destruct (IH _ _ _ F F' Hb Hb' E) as [-> ->]. auto.
Qed.
Lemma file_starts ts secs : file ts secs -> ts = [] \/ exists n r, ts = header n :: r.
Proof. destruct 1; [now left|right; eauto]. Qed.
Lemma entries_no_header ts es : Forall2 (fun l e => entry l e /\ (forall n', l <> header n')) ts es -> Forall no_header ts.
Proof. induction 1 as [|l e ls es [_ H] F IH]; constructor; auto. Qed.
Lemma entries_unique ts : forall es es', Forall2 (fun l e => entry l e /\ (forall n', l <> header n')) ts es ->
  Forall2 (fun l e => entry l e /\ (forall n', l <> header n')) ts es' -> es = es'.
Proof.
  induction ts as [|t ts IH]; intros es es' H H'; inversion H as [|? e ? ? [H1 _] H2]; inversion H' as [|? e' ? ? [H1' _] H2']; subst; [easy|].
  apply entry_ok in H1, H1'. f_equal; [congruence|]. eauto.
Qed.
Lemma file_unique ts secs : file ts secs -> forall secs', file ts secs' -> secs = secs'.
Proof.
  induction 1 as [|n es ts secs r F Hf IH]; intros secs' H'.
  - inversion H'. reflexivity.
  - remember (header n :: ts ++ r) as L eqn:EL. destruct H' as [|n' es' ts' secs2 r' F' Hf']; [discriminate|].
    assert (E0 : header n' = header n) by congruence. assert (E1 : ts' ++ r' = ts ++ r) by congruence. clear EL.
    apply header_inj in E0. subst n'.
    destruct (split_headers _ _ _ _ (entries_no_header _ _ F') (entries_no_header _ _ F) (file_starts _ _ Hf') (file_starts _ _ Hf) E1) as [-> ->].
    rewrite (entries_unique _ _ _ F F'). f_equal. auto.
Qed.
Lemma sections_only text out : ini_parse_string text = Ok (Some out) -> exists secs, sections_of text secs /\ out = map sec_of secs.
Proof.
  intros H. destruct (lines_of_total text) as [ls Hl]. destruct (meaning_total ls) as [ts Hm]. unfold ini_parse_string in H.
  rewrite (lines_of_lines _ _ Hl), (ini_meaning _ _ Hm) in H.
  apply ini_sound_tail in H; [|now apply meaning_tight in Hm]. destruct H as [l1 [es [l2 [secs [E [F [Hf [-> ->]]]]]]]].
  exists secs. split; [|easy]. exists ls, ts. cbn [app] in E. now subst.
Qed.
Lemma lines_of_unique s l1 l2 : lines_of s l1 -> lines_of s l2 -> l1 = l2.
Proof. intros H1 H2. apply lines_of_lines in H1, H2. congruence. Qed.
Lemma blank_padded l t : Forall white l -> padded l t -> tight t -> t = [].
Proof.
  intros F [a [b [-> _]]] T. apply Forall_app in F as [_ F]. apply Forall_app in F as [F _]. destruct t as [|c t]; [easy|].
  apply Forall_inv in F. destruct T as [T _]. now destruct (T c t eq_refl).
Qed.
Lemma meaning_unique ls : forall t1 t2, meaning ls t1 -> meaning ls t2 -> t1 = t2.
Proof.
  assert (C : forall l r t, padded l (35 :: r) -> padded l t -> tight t -> t <> [] -> (forall r, t <> 35 :: r) -> False).
  { intros l r t P1 P2 T NE NC. destruct (strip_comment l r P1) as [r' E]. rewrite (strip_padded l t P2 T) in E. now destruct (NC r'). }
  induction ls as [|l ls IH]; intros t1 t2 H1 H2; inversion H1; inversion H2; subst; auto;
    try (match goal with F : Forall white ?l, P : padded ?l ?t, T : tight ?t |- _ => pose proof (blank_padded _ _ F P T); congruence end);
    try (match goal with P : padded ?l (35 :: ?r), Q : padded ?l ?t, T : tight ?t |- _ => exfalso; eapply (C l r t); eauto; fail end).
  f_equal; [|eauto]. match goal with P : padded l ?t, Q : padded l ?u |- _ => pose proof (strip_padded l t P); pose proof (strip_padded l u Q) end.
  intuition congruence.
Qed.
Lemma sections_unique text s1 s2 : sections_of text s1 -> sections_of text s2 -> s1 = s2.
Proof.
  intros [l1 [t1 [H1 [H2 H3]]]] [l2 [t2 [G1 [G2 G3]]]]. pose proof (lines_of_unique _ _ _ H1 G1). subst.
  pose proof (meaning_unique _ _ _ H2 G2). subst. eapply file_unique; eauto.
Qed.

(* ---- rules --------------------------------------------------------------------------- *)
Lemma has_prefix_starts p s : has_prefix p s = true <-> starts p s.
Proof.
  revert s. induction p as [|x p IH]; intros s; cbn [has_prefix].
  - split; [intros _; now exists s|easy].
  - destruct s as [|y s]; [split; [discriminate|intros [r H]; discriminate]|]. rewrite andb_true_iff, N.eqb_eq, IH. split.
    + intros [-> [r ->]]. now exists r.
    + intros [r H]. injection H as -> ->. split; [easy|now exists r].
Qed.
Lemma no_prefix p s : ~ starts p s -> has_prefix p s = false.
Proof. intros H. destruct (has_prefix p s) eqn:E; [|easy]. now apply has_prefix_starts in E. Qed.
Lemma rule_total s : exists o, rule_of s o.
Proof.
  destruct (has_prefix [109; 58] s) eqn:E1; [apply has_prefix_starts in E1 as [r ->]; eexists; apply rule_mouse|].
  destruct (has_prefix [107; 58] s) eqn:E2; [apply has_prefix_starts in E2 as [r ->]; eexists; apply rule_keyboard|].
  destruct (has_prefix [45] s) eqn:E3; [apply has_prefix_starts in E3 as [r ->]; eexists; apply rule_except|].
  assert (N1 : ~ starts [109; 58] s) by (intros G; apply has_prefix_starts in G; congruence).
  assert (N2 : ~ starts [107; 58] s) by (intros G; apply has_prefix_starts in G; congruence).
  assert (N3 : ~ starts [45] s) by (intros G; apply has_prefix_starts in G; congruence).
  destruct (Nat.ltb_spec (length s) 63).
  - destruct (list_eq_dec N.eq_dec s [42]) as [->|Hs]; [eexists; apply rule_any|eexists; now apply rule_both].
  - eexists. now apply rule_long.
Qed.
Definition enc (o : option rule) : list (str * N) :=
  match o with
  | Some (Only m k x) => [(x, (if m then 2 else 0) + (if k then 4 else 0))]
  | Some (Except x) => [(x, 1)]
  | _ => []
  end.
Definition any (o : option rule) : bool := match o with Some Any => true | _ => false end.
Lemma add_id_ok c x f c' : add_id c x f = Ok c' -> c_ids c' = c_ids c ++ [(firstn 63 x, f)] /\ c_wildcard c' = c_wildcard c.
Proof. unfold add_id. destruct (Nat.ltb _ _); [|discriminate]. intros H. apply Ok_inj in H. now subst. Qed.
Lemma str_eqb_neq a b : a <> b -> str_eqb a b = false.
Proof. intros H. destruct (str_eqb a b) eqn:E; [|easy]. now apply str_eqb_true in E. Qed.
Lemma id_rule c e c' o : parse_id_entry c e = Ok c' -> rule_of (fst e) o ->
  c_ids c' = c_ids c ++ enc o /\ c_wildcard c' = c_wildcard c || any o.
Proof.
  destruct e as [s v]. cbn [fst]. unfold parse_id_entry. cbn [fst]. intros H R.
  inversion R as [Es Eo|x Es Eo|x Es Eo|x Es Eo|x Hn H1 H2 H3 Hl Es Eo|x H1 H2 H3 Hl Es Eo]; subst; clear R.
  - change (str_eqb [42] (bs "*")) with true in H. cbn iota in H. apply Ok_inj in H. subst. cbn [c_ids c_wildcard set_c_wildcard enc any].
    rewrite app_nil_r, orb_true_r. auto.
  - rewrite (str_eqb_neq _ (bs "*")) in H by discriminate. rewrite (proj2 (has_prefix_starts (bs "m:") _)) in H by now exists x.
    cbn [skipn] in H. apply add_id_ok in H as [-> ->]. rewrite orb_false_r. auto.
  - rewrite (str_eqb_neq _ (bs "*")) in H by discriminate. rewrite (no_prefix (bs "m:")) in H by (intros [r G]; discriminate).
    rewrite (proj2 (has_prefix_starts (bs "k:") _)) in H by now exists x. cbn [skipn] in H. apply add_id_ok in H as [-> ->]. rewrite orb_false_r. auto.
  - rewrite (str_eqb_neq _ (bs "*")) in H by discriminate. rewrite (no_prefix (bs "m:")) in H by (intros [r G]; discriminate).
    rewrite (no_prefix (bs "k:")) in H by (intros [r G]; discriminate). rewrite (proj2 (has_prefix_starts (bs "-") _)) in H by now exists x.
    cbn [skipn] in H. apply add_id_ok in H as [-> ->]. rewrite orb_false_r. auto.
  - rewrite (str_eqb_neq _ (bs "*")) in H by easy. rewrite !no_prefix in H by easy.
    destruct (Nat.ltb_spec (length s) 63) as [L|L]; [|lia]. apply add_id_ok in H as [-> ->]. rewrite orb_false_r. cbn [enc].
    rewrite firstn_all2 by lia. auto.
  - rewrite (str_eqb_neq _ (bs "*")) in H by (intros ->; cbn in Hl; lia). rewrite !no_prefix in H by easy.
    destruct (Nat.ltb_spec (length s) 63) as [L|L]; [lia|]. apply Ok_inj in H. subst. cbn [enc any]. rewrite app_nil_r, orb_false_r. auto.
Qed.
Definition encs (rs : list rule) : list (str * N) := flat_map (fun r => enc (Some r)) rs.
Definition anys (rs : list rule) : bool := existsb (fun r => any (Some r)) rs.
Lemma ids_rules : forall es c c' rs, foldr_res parse_id_entry es c = Ok c' -> rules (map fst es) rs ->
  c_ids c' = c_ids c ++ encs rs /\ c_wildcard c' = c_wildcard c || anys rs.
Proof.
  induction es as [|e es IH]; intros c c' rs H R; cbn [foldr_res map] in *.
  - inversion R; subst. apply Ok_inj in H. subst. cbn. now rewrite app_nil_r, orb_false_r.
  - bstep H c1 E. inversion R as [|l r ls rs' R1 R2|l ls rs' R1 R2]; subst.
    + apply (id_rule _ _ _ _ E) in R1 as [G1 G2]. apply (IH _ _ _ H) in R2 as [G3 G4]. rewrite G3, G4, G1, G2, <- app_assoc, <- orb_assoc. auto.
    + apply (id_rule _ _ _ _ E) in R1 as [G1 G2]. apply (IH _ _ _ H) in R2 as [G3 G4]. rewrite G3, G4, G1, G2.
      cbn [enc any]. now rewrite app_nil_r, orb_false_r.
Qed.
Lemma rules_total ls : exists rs, rules ls rs.
Proof.
  induction ls as [|l ls [rs IH]]; [exists []; constructor|]. destruct (rule_total l) as [[r|] H].
  - exists (r :: rs). now constructor.
  - exists rs. now constructor.
Qed.
Lemma rules_app a b : forall rs, rules (a ++ b) rs -> exists r1 r2, rs = r1 ++ r2 /\ rules a r1 /\ rules b r2.
Proof.
  induction a as [|x a IH]; intros rs H; [exists [], rs; repeat split; auto; constructor|]. cbn [app] in H.
  inversion H as [|l r ls rs' R1 R2|l ls rs' R1 R2]; subst; apply IH in R2 as [r1 [r2 [-> [G1 G2]]]].
  - exists (r :: r1), r2. repeat split; auto. now constructor.
  - exists r1, r2. repeat split; auto. now constructor.
Qed.
Lemma encs_app a b : encs (a ++ b) = encs a ++ encs b.
Proof. apply flat_map_app. Qed.
Lemma anys_app a b : anys (a ++ b) = anys a || anys b.
Proof. apply existsb_app. Qed.
Lemma pass1_rules : forall secs c c' rs, foldr_res pass1_section (map sec_of secs) c = Ok c' -> rules (id_text secs) rs ->
  c_ids c' = c_ids c ++ encs rs /\ c_wildcard c' = c_wildcard c || anys rs.
Proof.
  induction secs as [|[n es] secs IH]; intros c c' rs H R; cbn [map foldr_res] in H.
  - inversion R; subst. apply Ok_inj in H. subst. cbn. now rewrite app_nil_r, orb_false_r.
  - bstep H c1 E. unfold id_text in R. cbn [flat_map fst snd] in R. apply rules_app in R as [r1 [r2 [-> [R1 R2]]]]. fold (id_text secs) in R2.
    apply (IH _ _ _ H) in R2 as [G3 G4]. rewrite G3, G4, encs_app, anys_app. clear IH H G3 G4.
    assert (G : c_ids c1 = c_ids c ++ encs r1 /\ c_wildcard c1 = c_wildcard c || anys r1).
    { unfold pass1_section, sec_of in E. cbn [sec_name sec_entries fst snd] in E. destruct (str_eqb n (bs "ids")); [eapply ids_rules; eauto|].
      inversion R1; subst. cbn. rewrite app_nil_r, orb_false_r.
      destruct (str_eqb n _); [now apply (ids_same_fold _ ids_same_alias) in E|].
      destruct (str_eqb n _); [now apply (ids_same_fold _ ids_same_global) in E|]. now apply ids_same_layer in E. }
    destruct G as [-> ->]. now rewrite <- app_assoc, <- orb_assoc.
Qed.
Lemma parse_rules text secs c rs : config_parse text = Ok (Some c) -> sections_of text secs -> rules (id_text secs) rs ->
  c_ids c = encs rs /\ c_wildcard c = anys rs.
Proof.
  intros H S R. destruct config_parse_from as [c0 [_ [I0 [W0 E0]]]]. rewrite E0 in H. clear E0.
  unfold config_parse_string in H. bstep H o Eo. destruct o as [out|]; [|discriminate]. apply sections_only in Eo as [secs' [S' ->]].
  pose proof (sections_unique _ _ _ S S'). subst secs'. bstep H c1 E1. bstep H c2 E2. apply Ok_inj in H. injection H as <-.
  apply (pass1_rules _ _ _ _ E1) in R as [G1 G2]. apply (ids_same_fold _ ids_same_pass2) in E2 as [F1 F2].
  rewrite F1, F2, G1, G2, I0, W0. auto.
Qed.

(* ---- matching ------------------------------------------------------------------------ *)
Definition mouse_caps (caps : N) : bool := N.testbit caps 0 || N.testbit caps 1.
Definition flags_of (d : dev) : N := N.lor (if dv_keyboard d then 4 else 0) (if dv_mouse d then 2 else 0).
Lemma land_bit a i : (N.land a (2 ^ i) =? 0) = negb (N.testbit a i).
Proof.
  destruct (N.testbit a i) eqn:E.
  - apply N.eqb_neq. intros H. apply (f_equal (fun x => N.testbit x i)) in H. rewrite N.land_spec, E, N.pow2_bits_true, N.bits_0 in H. discriminate.
  - apply N.eqb_eq. apply N.bits_inj. intros j. rewrite N.land_spec, N.bits_0. destruct (N.eq_dec i j) as [->|Hn].
    + now rewrite E.
    + now rewrite N.pow2_bits_false, andb_false_r.
Qed.
Lemma caps_flags id caps : device_flags caps = flags_of (mkDev id (mouse_caps caps) (N.testbit caps 2)).
Proof.
  unfold device_flags, flags_of, mouse_caps. cbn [dv_keyboard dv_mouse].
  change CAP_KEYBOARD with (2 ^ 2). rewrite land_bit, negb_involutive. f_equal.
  change (N.lor CAP_MOUSE CAP_MOUSE_ABS) with (N.lor (2 ^ 0) (2 ^ 1)). rewrite N.land_lor_distr_r.
  destruct (N.lor _ _ =? 0) eqn:E.
  - apply N.eqb_eq, N.lor_eq_0_iff in E as [E1 E2]. apply N.eqb_eq in E1, E2. rewrite land_bit in E1, E2. apply negb_true_iff in E1, E2.
    now rewrite E1, E2.
  - apply N.eqb_neq in E. assert (F : N.testbit caps 0 || N.testbit caps 1 = true); [|now rewrite F].
    destruct (N.testbit caps 0) eqn:F0; [easy|]. destruct (N.testbit caps 1) eqn:F1; [easy|]. exfalso. apply E.
    apply N.lor_eq_0_iff. split; apply N.eqb_eq; rewrite land_bit; now rewrite ?F0, ?F1.
Qed.
Lemma applies_unique r d a b : applies r d a -> applies r d b -> a = b.
Proof. destruct r; cbn; intuition congruence. Qed.
Lemma listed_unique d rs a : listed_for d rs a -> forall b, listed_for d rs b -> a = b.
Proof.
  induction 1 as [r rs yes H|r rs yes H L IH]; intros b G; inversion G; subst.
  - eapply applies_unique; eauto.
  - exfalso. match goal with N : forall b, ~ applies _ _ b |- _ => exact (N _ H) end.
  - exfalso. eapply H; eauto.
  - auto.
Qed.
Lemma check_ids_ok d : forall rs,
  match check_ids (encs rs) (dv_id d) (flags_of d) with
  | Some q => exists yes, listed_for d rs yes /\ q = (if yes then 2 else 0)
  | None => forall b, ~ listed_for d rs b
  end.
Proof.
  induction rs as [|r rs IH]; [cbn; intros b H; inversion H|]. unfold encs. cbn [flat_map]. fold (encs rs).
  assert (K : (forall b, ~ applies r d b) ->
     match check_ids (encs rs) (dv_id d) (flags_of d) with
     | Some q => exists yes, listed_for d (r :: rs) yes /\ q = (if yes then 2 else 0)
     | None => forall b, ~ listed_for d (r :: rs) b end).
  { intros N. destruct (check_ids (encs rs) _ _) as [q|].
    - destruct IH as [yes [L ->]]. exists yes. split; [now apply listed_later|easy].
    - intros b G. inversion G; subst; [eapply N; eauto|eapply IH; eauto]. }
  destruct r as [|m k x|x]; cbn [enc app].
  - apply K. intros b H. exact H.
  - cbn [check_ids]. destruct (has_prefix x (dv_id d)) eqn:E.
    + apply has_prefix_starts in E.
      assert (X : N.land ((if m then 2 else 0) + (if k then 4 else 0)) ID_EXCLUDED =? 0 = true) by (destruct m, k; reflexivity).
      rewrite X. cbn [negb].
      assert (Y : negb (N.land ((if m then 2 else 0) + (if k then 4 else 0)) (flags_of d) =? 0) = (m && dv_mouse d || k && dv_keyboard d)%bool).
      { unfold flags_of. destruct m, k, (dv_mouse d), (dv_keyboard d); reflexivity. }
      rewrite Y. destruct (m && dv_mouse d || k && dv_keyboard d)%bool eqn:Z.
      * exists true. split; [|easy]. apply listed_here. now split.
      * apply K. intros b [_ [G _]]. congruence.
    + apply K. intros b [G _]. apply has_prefix_starts in G. congruence.
  - cbn [check_ids]. destruct (has_prefix x (dv_id d)) eqn:E.
    + apply has_prefix_starts in E. change (N.land 1 ID_EXCLUDED =? 0) with false. cbn [negb]. exists false. split; [|easy]. apply listed_here. now split.
    + apply K. intros b [G _]. apply has_prefix_starts in G. congruence.
Qed.
Lemma anys_in rs : anys rs = true <-> In Any rs.
Proof.
  unfold anys. rewrite existsb_exists. split; [intros [x [H E]]; now destruct x|intros H; now exists Any].
Qed.
Definition has_rules (c : config) (rs : list rule) : Prop := c_ids c = encs rs /\ c_wildcard c = anys rs.
Lemma match_ok c rs d : has_rules c rs ->
  let q := config_check_match c (dv_id d) (flags_of d) in
  (q = 0 \/ q = 1 \/ q = 2) /\ (q = 2 <-> explicit rs d) /\ (q = 1 <-> by_wildcard rs d).
Proof.
  intros [H1 H2]. cbv zeta. unfold config_check_match. rewrite H1, H2. pose proof (check_ids_ok d rs) as H.
  destruct (check_ids _ _ _) as [q|].
  - destruct H as [yes [L ->]]. destruct yes.
    + split; [auto|]. split; [now split|]. split; [discriminate|]. intros [_ G]. now destruct (G true).
    + split; [auto|]. split; [|split; [discriminate|]].
      * split; [discriminate|]. intros G. pose proof (listed_unique _ _ _ L _ G). discriminate.
      * intros [_ G]. now destruct (G false).
  - destruct (anys rs) eqn:E.
    + apply anys_in in E. split; [auto|]. split; [split; [discriminate|intros G; now destruct (H true)]|].
      split; [intros _; now split|easy].
    + split; [auto|]. split; [split; [discriminate|intros G; now destruct (H true)]|]. split; [discriminate|]. intros [G _]. apply anys_in in G. congruence.
Qed.
Section Best.
Variables (id : str) (flags : N).
Let q (c : config) : N := config_check_match c id flags.
Lemma best_ok : forall cs, Forall (fun c => q c = 0 \/ q c = 1 \/ q c = 2) cs -> forall i m rank, rank = 0 \/ rank = 1 \/ rank = 2 ->
  (rank <> 2 /\ exists j, first (fun c => q c = 2) cs j /\ best_match cs id flags i m rank = (Some (i + j)%nat, 2))
  \/ (rank = 2 \/ Forall (fun c => q c <> 2) cs) /\
     ((rank = 0 /\ exists j, first (fun c => q c = 1) cs j /\ best_match cs id flags i m rank = (Some (i + j)%nat, 1))
      \/ (rank <> 0 \/ Forall (fun c => q c <> 1) cs) /\ best_match cs id flags i m rank = (m, rank)).
Proof.
  induction cs as [|c cs IH]; intros F i m rank R; cbn [best_match].
  - right. split; [right; constructor|]. right. split; [right; constructor|easy].
  - apply Forall_cons_iff in F as [F1 F]. fold (q c). destruct (N.ltb_spec rank (q c)) as [L|L].
    + assert (E : q c = 1 /\ rank = 0 \/ q c = 2) by lia. destruct E as [[E ->]|E].
      * rewrite E. destruct (IH F (S i) (Some i) 1 ltac:(auto)) as [[_ [j [G1 G2]]]|[[G1|G1] [[G2 _]|[_ G2]]]]; try lia.
        -- left. split; [lia|]. exists (S j). split; [apply first_later; [lia|easy]|]. rewrite G2. f_equal. f_equal. lia.
        -- right. split; [right; constructor; [lia|easy]|]. left. split; [easy|]. exists 0%nat. split; [now apply first_here|].
           rewrite G2. f_equal. f_equal. lia.
      * rewrite E. left. split; [lia|]. exists 0%nat. split; [now apply first_here|].
        destruct (IH F (S i) (Some i) 2 ltac:(auto)) as [[G _]|[_ [[G _]|[_ G]]]]; try lia. rewrite G. f_equal. f_equal. lia.
    + destruct (IH F (S i) m rank R) as [[G1 [j [G2 G3]]]|[G1 [[G2 [j [G3 G4]]]|[G2 G3]]]].
      * left. split; [easy|]. exists (S j). split; [apply first_later; [lia|easy]|]. rewrite G3. f_equal. f_equal. lia.
      * right. split; [destruct G1; [now left|right; constructor; [lia|easy]]|]. left. split; [easy|]. exists (S j).
        split; [apply first_later; [lia|easy]|]. rewrite G4. f_equal. f_equal. lia.
      * right. split; [destruct G1; [now left|]|].
        { destruct (N.eq_dec rank 2); [now left|right; constructor; [lia|easy]]. }
        right. split; [|easy]. destruct G2; [now left|]. destruct (N.eq_dec rank 0); [right; constructor; [lia|easy]|now left].
Qed.
End Best.
Lemma first_map {A B} (P : A -> Prop) (Q : B -> Prop) (R : A -> B -> Prop) : (forall a b, R a b -> (P a <-> Q b)) ->
  forall l m, Forall2 R l m -> forall i, first P l i -> first Q m i.
Proof.
  intros H l m F. induction F as [|a b l m Hab F IH]; intros i G; inversion G; subst.
  - apply first_here. now apply (H a b).
  - apply first_later; [|auto]. now rewrite <- (H a b).
Qed.
Lemma Forall_map2 {A B} (P : A -> Prop) (Q : B -> Prop) (R : A -> B -> Prop) : (forall a b, R a b -> (P a <-> Q b)) ->
  forall l m, Forall2 R l m -> Forall P l -> Forall Q m.
Proof.
  intros H l m F. induction F as [|a b l m Hab F IH]; intros G; [constructor|]. apply Forall_cons_iff in G as [G1 G2]. constructor; [now apply (H a b)|auto].
Qed.
Lemma mouse_only_flags d : (flags_of d =? ID_MOUSE) = true <-> mouse_only d.
Proof. unfold flags_of, mouse_only. destruct (dv_mouse d), (dv_keyboard d); cbn; intuition congruence. Qed.
Lemma choose_ok cs rss d : Forall2 has_rules cs rss -> chosen rss d (lookup_config_ent cs (dv_id d) (flags_of d)).
Proof.
  intros F. set (q := fun c => config_check_match c (dv_id d) (flags_of d)).
  assert (Fq : Forall (fun c => q c = 0 \/ q c = 1 \/ q c = 2) cs).
  { induction F as [|c rs cs rss H F IH]; constructor; auto. now apply (match_ok c rs d). }
  assert (Q2 : forall c rs, has_rules c rs -> (q c = 2 <-> explicit rs d)) by (intros c rs H; now apply (match_ok c rs d)).
  assert (Q1 : forall c rs, has_rules c rs -> (q c = 1 <-> by_wildcard rs d)) by (intros c rs H; now apply (match_ok c rs d)).
  assert (Q2' : forall c rs, has_rules c rs -> (q c <> 2 <-> ~ explicit rs d)) by (intros c rs H; now rewrite (Q2 c rs H)).
  assert (Q1' : forall c rs, has_rules c rs -> (q c <> 1 <-> ~ by_wildcard rs d)) by (intros c rs H; now rewrite (Q1 c rs H)).
  unfold lookup_config_ent. destruct (best_ok (dv_id d) (flags_of d) cs Fq 0%nat None 0 ltac:(auto))
    as [[_ [j [G1 G2]]]|[[G1|G1] [[_ [j [G2 G3]]]|[[G2|G2] G3]]]]; try lia.
  - rewrite G2. cbn [Nat.add]. change (2 =? 1) with false. cbn [andb]. left. eapply first_map; [exact Q2|exact F|exact G1].
  - rewrite G3. cbn [Nat.add]. change (1 =? 1) with true. cbn [andb].
    assert (NE : Forall (fun rs => ~ explicit rs d) rss) by (eapply Forall_map2; [exact Q2'|exact F|exact G1]).
    destruct (flags_of d =? ID_MOUSE) eqn:Em.
    + split; [easy|]. right. now apply mouse_only_flags.
    + right. split; [easy|]. split; [eapply first_map; [exact Q1|exact F|exact G2]|]. intros G. apply mouse_only_flags in G. congruence.
  - rewrite G3. change (0 =? 1) with false. cbn [andb]. split; [eapply Forall_map2; [exact Q2'|exact F|exact G1]|].
    left. eapply Forall_map2; [exact Q1'|exact F|exact G2].
Qed.
Lemma first_unique {A} (P : A -> Prop) l i : first P l i -> forall j, first P l j -> i = j.
Proof. induction 1 as [a l H|a l i H F IH]; intros j G; inversion G; subst; auto; easy. Qed.
Lemma first_some {A} (P : A -> Prop) l i : first P l i -> ~ Forall (fun a => ~ P a) l.
Proof. induction 1 as [a l H|a l i H F IH]; intros G; apply Forall_cons_iff in G as [G1 G2]; auto. Qed.
Lemma chosen_unique rss d o o' : chosen rss d o -> chosen rss d o' -> o = o'.
Proof.
  destruct o as [i|], o' as [j|]; cbn [chosen]; intros H G; auto.
  - f_equal. destruct H as [H|[H1 [H2 H3]]], G as [G|[G1 [G2 G3]]].
    + eapply first_unique; eauto.
    + now destruct (first_some _ _ _ H).
    + now destruct (first_some _ _ _ G).
    + eapply first_unique; eauto.
  - destruct G as [G1 G2]. destruct H as [H|[H1 [H2 H3]]]; [now destruct (first_some _ _ _ H)|]. destruct G2 as [G2|G2]; [now destruct (first_some _ _ _ H2)|easy].
  - destruct H as [H1 H2]. destruct G as [G|[G1 [G2 G3]]]; [now destruct (first_some _ _ _ G)|]. destruct H2 as [H2|H2]; [now destruct (first_some _ _ _ G2)|easy].
Qed.
