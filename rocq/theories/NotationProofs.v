(* Proofs about the notations of keys, modifier sets, characters (C34-C38). *)
From Coq Require Import String Lia.
From Verif Require Import Base KeyTable Keys Types Str UnicodeTable MacroParse MacroExec SpecNotation.
Local Open Scope N_scope.
Local Open Scope list_scope.
Local Notation length := List.length.

Lemma str_eqb_eq a : forall b, str_eqb a b = true <-> a = b.
Proof.
  induction a as [|x a IH]; intros [|y b]; cbn [str_eqb]; try (split; discriminate); [tauto|].
  rewrite andb_true_iff, N.eqb_eq, IH. split; [intros [-> ->]; auto|intros E; injection E; auto].
Qed.
Lemma str_eqb_refl a : str_eqb a a = true. Proof. now apply str_eqb_eq. Qed.

(* ---- letters ---------------------------------------------------------------- *)
Lemma mod_letter_some c m : mod_letter c = Some m <-> exists b, letter c b /\ m = 2 ^ b.
Proof.
  unfold mod_letter. split.
  - destruct (N.eqb_spec c 67) as [->|_]; [intros H; injection H as <-; exists 3; split; [constructor|reflexivity]|].
    destruct (N.eqb_spec c 77) as [->|_]; [intros H; injection H as <-; exists 1; split; [constructor|reflexivity]|].
    destruct (N.eqb_spec c 65) as [->|_]; [intros H; injection H as <-; exists 0; split; [constructor|reflexivity]|].
    destruct (N.eqb_spec c 83) as [->|_]; [intros H; injection H as <-; exists 2; split; [constructor|reflexivity]|].
    destruct (N.eqb_spec c 71) as [->|_]; [intros H; injection H as <-; exists 4; split; [constructor|reflexivity]|].
    discriminate.
  - intros [b [H ->]]. destruct H; reflexivity.
Qed.
Lemma letter_fun l b b' : letter l b -> letter l b' -> b = b'.
Proof. intros H H'. destruct H; inversion H'; auto. Qed.
Lemma letter_lt l b : letter l b -> b < 5. Proof. intros H; destruct H; lia. Qed.
Lemma letter_inj l l' b : letter l b -> letter l' b -> l = l'.
Proof. intros H H'. destruct H; inversion H'; auto. Qed.

Lemma denotes_nil : denotes [] 0.
Proof. split; [constructor|]. intros b. rewrite N.bits_0. split; [discriminate|intros [l [[] _]]]. Qed.
Lemma denotes_fun ls m m' : denotes ls m -> denotes ls m' -> m = m'.
Proof.
  intros [_ H] [_ H']. apply N.bits_inj. intros b. specialize (H b). specialize (H' b).
  destruct (N.testbit m b), (N.testbit m' b); auto; [symmetry; apply H', H; auto|apply H, H'; auto].
Qed.
Lemma denotes_snoc ls m l b : denotes ls m -> letter l b -> denotes (ls ++ [l]) (N.lor m (2 ^ b)).
Proof.
  intros [F H] Hl. split.
  - apply Forall_app. split; auto. constructor; eauto.
  - intros x. rewrite N.lor_spec, orb_true_iff, H. rewrite N.pow2_bits_eqb, N.eqb_eq. split.
    + intros [[l' [X Y]]|<-]; [exists l'|exists l]; rewrite in_app_iff; cbn; auto.
    + intros [l' [X Y]]. apply in_app_iff in X as [X|[<-|[]]]; [left; eauto|right]. eapply letter_fun; eauto.
Qed.
Lemma denotes_perm ls ls' m : (forall l, In l ls <-> In l ls') -> denotes ls m -> denotes ls' m.
Proof.
  intros P [F H]. split.
  - rewrite Forall_forall in *. intros l Hl. apply F, P, Hl.
  - intros b. rewrite H. split; intros [l [X Y]]; exists l; split; auto; now apply P.
Qed.

(* ---- C35 --------------------------------------------------------------------- *)
Lemma joined_cons l r : r <> [] -> joined (l :: r) = l :: 45 :: joined r.
Proof. destruct r; [congruence|reflexivity]. Qed.
Lemma pmf_ok ls0 acc : denotes ls0 acc -> forall n s m, (length s <= n)%nat -> parse_modset_from acc s = Some m ->
  exists ls, denotes (ls0 ++ ls) m /\ (s = joined ls \/ s = dashed ls).
Proof.
  intros H0 n. revert ls0 acc H0. induction n as [|n IH]; intros ls0 acc H0 s m Hn H; destruct s as [|c r]; cbn [parse_modset_from length] in *.
  - injection H as <-. exists []. rewrite app_nil_r. auto.
  - lia.
  - injection H as <-. exists []. rewrite app_nil_r. auto.
  - destruct (mod_letter c) as [mm|] eqn:E; [|discriminate]. apply mod_letter_some in E as [b [Hb ->]].
    pose proof (denotes_snoc _ _ _ _ H0 Hb) as H1. destruct r as [|d r'].
    + injection H as <-. exists [c]. auto.
    + destruct (N.eqb_spec d 45) as [->|]; [|discriminate]. cbn [length] in Hn.
      destruct (IH _ _ H1 r' m ltac:(lia) H) as [ls [A B]]. rewrite <- app_assoc in A. cbn [app] in A.
      destruct ls as [|l ls].
      * assert (r' = []) as -> by (now destruct B). exists [c]. auto.
      * exists (c :: l :: ls). split; auto. destruct B as [->| ->]; [left; rewrite (joined_cons c (l :: ls)); [reflexivity|congruence]|right; reflexivity].
Qed.
Lemma letters_denote ls : Forall (fun l => exists b, letter l b) ls -> exists m, denotes ls m.
Proof.
  rewrite <- (rev_involutive ls). generalize (rev ls). clear ls. intros ls. induction ls as [|l r IH]; intros F.
  - exists 0. apply denotes_nil.
  - cbn [rev] in *. apply Forall_app in F as [F1 F2]. destruct (IH F1) as [m Hm].
    apply Forall_inv in F2 as [b Hb]. eexists. eapply denotes_snoc; eauto.
Qed.
Lemma pmf_complete ls0 acc : denotes ls0 acc -> forall ls s m, denotes (ls0 ++ ls) m -> (s = joined ls \/ s = dashed ls) ->
  parse_modset_from acc s = Some m.
Proof.
  intros H0 ls. revert ls0 acc H0. induction ls as [|l ls IH]; intros ls0 acc H0 s m Hm Hs.
  - rewrite app_nil_r in Hm. rewrite (denotes_fun _ _ _ Hm H0). destruct Hs as [-> | ->]; reflexivity.
  - destruct Hm as [F Hm]. pose proof F as F0. apply Forall_app in F as [F1 F2]. apply Forall_inv in F2 as [b Hb].
    pose proof (denotes_snoc _ _ _ _ H0 Hb) as H1.
    assert (Hm' : denotes ((ls0 ++ [l]) ++ ls) m) by (rewrite <- app_assoc; split; auto).
    assert (E : mod_letter l = Some (2 ^ b)) by (apply mod_letter_some; eauto).
    destruct ls as [|l2 ls].
    + rewrite app_nil_r in Hm'. rewrite (denotes_fun _ _ _ Hm' H1). destruct Hs as [-> | ->]; cbn [joined dashed flat_map app parse_modset_from]; rewrite E; reflexivity.
    + destruct Hs as [-> | ->].
      * rewrite (joined_cons l (l2 :: ls)) by congruence. cbn [parse_modset_from]. rewrite E, N.eqb_refl. eapply IH; eauto.
      * change (dashed (l :: l2 :: ls)) with (l :: 45 :: dashed (l2 :: ls)). cbn [parse_modset_from].
        rewrite E, N.eqb_refl. eapply IH; eauto.
Qed.

(* ---- C34 --------------------------------------------------------------------- *)
Lemma strip_dashed ls : forall acc ls0 nm m, denotes ls0 acc -> denotes (ls0 ++ ls) m ->
  (forall x r, nm <> x :: 45 :: r) -> strip_mods acc (dashed ls ++ nm) = Some (m, nm).
Proof.
  induction ls as [|l ls IH]; intros acc ls0 nm m H0 Hm Hn.
  - rewrite app_nil_r in Hm. rewrite (denotes_fun _ _ _ Hm H0). cbn [dashed flat_map app].
    destruct nm as [|x [|y r]]; cbn [strip_mods]; auto.
    destruct (N.eq_dec y 45) as [->|Hy]; [exfalso; eapply Hn; reflexivity|].
    destruct y as [|p]; auto.
    do 6 (destruct p as [p|p|]; auto; try congruence).
  - destruct Hm as [F Hm]. pose proof F as F0. apply Forall_app in F as [F1 F2]. apply Forall_inv in F2 as [b Hb].
    pose proof (denotes_snoc _ _ _ _ H0 Hb) as H1.
    assert (Hm' : denotes ((ls0 ++ [l]) ++ ls) m) by (rewrite <- app_assoc; split; auto).
    assert (E : mod_letter l = Some (2 ^ b)) by (apply mod_letter_some; eauto).
    change (dashed (l :: ls) ++ nm) with (l :: 45 :: (dashed ls ++ nm)). cbn [strip_mods]. rewrite E. eapply IH; eauto.
Qed.
Lemma strip_ok n : forall acc ls0 s m c, (length s <= n)%nat -> denotes ls0 acc -> strip_mods acc s = Some (m, c) ->
  exists ls, denotes (ls0 ++ ls) m /\ s = dashed ls ++ c.
Proof.
  induction n as [|n IH]; intros acc ls0 s m c Hn H0 H; destruct s as [|x r]; cbn [length] in Hn; try lia.
  - cbn in H. injection H as <- <-. exists []. rewrite app_nil_r. auto.
  - cbn in H. injection H as <- <-. exists []. rewrite app_nil_r. auto.
  - assert (D : (exists r', r = 45 :: r') \/ strip_mods acc (x :: r) = Some (acc, x :: r)).
    { destruct r as [|y r']; cbn [strip_mods]; auto. destruct y as [|p]; auto.
      do 6 (destruct p as [p|p|]; auto; try (left; eexists; reflexivity)). }
    destruct D as [[r' ->]|D].
    + cbn [strip_mods] in H. destruct (mod_letter x) as [mm|] eqn:E; [|discriminate].
      apply mod_letter_some in E as [b [Hb ->]]. cbn [length] in Hn.
      destruct (IH _ (ls0 ++ [x]) r' m c ltac:(lia) (denotes_snoc _ _ _ _ H0 Hb) H) as [ls [A ->]].
      exists (x :: ls). rewrite <- app_assoc in A. auto.
    + rewrite D in H. injection H as <- <-. exists []. rewrite app_nil_r. auto.
Qed.
(* the position and kind found by the scan, apart from the modifiers *)
Lemma scan_mods tbl : forall i mods c,
  scan_table tbl i mods c = match scan_table tbl i 0 c with
                            | Some (x, m) => Some (x, N.lor mods m) | None => None end.
Proof.
  induction tbl as [|[[nm al] sh] tbl IH]; intros i mods c; cbn [scan_table]; auto.
  destruct nm as [nm|]; auto. destruct (opt_str_is sh c); [now rewrite N.lor_0_l|].
  destruct (str_eqb nm c || opt_str_is al c); [now rewrite N.lor_0_r|apply IH].
Qed.
Lemma scan_ok tbl : forall i mods c x m, scan_table tbl i mods c = Some (x, m) ->
  exists j nm al sh, x = i + N.of_nat j /\ nth_error tbl j = Some (Some nm, al, sh)
    /\ ((sh = Some c /\ m = N.lor mods 4) \/ ((nm = c \/ al = Some c) /\ m = mods)).
Proof.
  induction tbl as [|[[nm al] sh] tbl IH]; intros i mods c x m; cbn [scan_table]; [discriminate|].
  assert (R : scan_table tbl (i + 1) mods c = Some (x, m) -> exists j nm0 al0 sh0, x = i + N.of_nat j
     /\ nth_error ((nm, al, sh) :: tbl) j = Some (Some nm0, al0, sh0)
     /\ ((sh0 = Some c /\ m = N.lor mods 4) \/ ((nm0 = c \/ al0 = Some c) /\ m = mods))).
  { intros H. apply IH in H as [j [a [b [d [E [E2 E3]]]]]]. exists (S j), a, b, d. split; [lia|]. split; auto. }
  destruct nm as [nm|]; auto. unfold opt_str_is. destruct sh as [s|].
  - destruct (str_eqb s c) eqn:E.
    + apply str_eqb_eq in E as ->. intros H. injection H as <- <-. exists 0%nat, nm, al, (Some c). split; [lia|]. split; [reflexivity|]. auto.
    + destruct (str_eqb nm c) eqn:E2; cbn [orb].
      * apply str_eqb_eq in E2 as ->. intros H. injection H as <- <-. exists 0%nat, c, al, (Some s). split; [lia|]. split; [reflexivity|]. auto.
      * destruct al as [a|]; auto. destruct (str_eqb a c) eqn:E3; auto.
        apply str_eqb_eq in E3 as ->. intros H. injection H as <- <-. exists 0%nat, nm, (Some c), (Some s). split; [lia|]. split; [reflexivity|]. auto.
  - destruct (str_eqb nm c) eqn:E2; cbn [orb].
    + apply str_eqb_eq in E2 as ->. intros H. injection H as <- <-. exists 0%nat, c, al, None. split; [lia|]. split; [reflexivity|]. auto.
    + destruct al as [a|]; auto. destruct (str_eqb a c) eqn:E3; auto.
      apply str_eqb_eq in E3 as ->. intros H. injection H as <- <-. exists 0%nat, nm, (Some c), None. split; [lia|]. split; [reflexivity|]. auto.
Qed.

(* ---- C36 --------------------------------------------------------------------- *)
Lemma lor_add a b n : b < 2 ^ n -> N.lor (N.shiftl a n) b = a * 2 ^ n + b.
Proof.
  intros H. rewrite N.shiftl_mul_pow2.
  rewrite <- N.lxor_lor, <- N.add_nocarry_lxor; auto; [|].
  - apply N.bits_inj_0. intros m. rewrite N.land_spec. destruct (N.lt_ge_cases m n) as [L|L].
    + rewrite N.mul_pow2_bits_low; auto.
    + replace (N.testbit b m) with false; [apply andb_false_r|]. symmetry.
      destruct (N.eq_dec b 0) as [->|Hb]; [apply N.bits_0|]. apply N.bits_above_log2.
      assert (N.log2 b < n); [|lia]. apply N.log2_lt_pow2; lia.
  - apply N.bits_inj_0. intros m. rewrite N.land_spec. destruct (N.lt_ge_cases m n) as [L|L].
    + rewrite N.mul_pow2_bits_low; auto.
    + replace (N.testbit b m) with false; [apply andb_false_r|]. symmetry.
      destruct (N.eq_dec b 0) as [->|Hb]; [apply N.bits_0|]. apply N.bits_above_log2.
      assert (N.log2 b < n); [|lia]. apply N.log2_lt_pow2; lia.
Qed.
Lemma land_mod a n : N.land a (2 ^ n - 1) = a mod 2 ^ n.
Proof. rewrite <- N.pred_sub, <- N.ones_equiv. apply N.land_ones. Qed.
Ltac divs cp := 
  pose proof (N.div_mod cp 64 ltac:(lia)); pose proof (N.mod_lt cp 64 ltac:(lia));
  pose proof (N.div_mod (cp / 64) 64 ltac:(lia)); pose proof (N.mod_lt (cp / 64) 64 ltac:(lia));
  pose proof (N.div_mod (cp / 64 / 64) 64 ltac:(lia)); pose proof (N.mod_lt (cp / 64 / 64) 64 ltac:(lia)).
Lemma cont x : x < 64 -> N.land (128 + x) 63 = x.
Proof.
  intros H. change 63 with (2 ^ 6 - 1). rewrite land_mod. change (2 ^ 6) with 64.
  replace (128 + x) with (x + 2 * 64) by lia. rewrite N.mod_add by lia. apply N.mod_small, H.
Qed.
Lemma utf8_decode cp rest : scalar cp -> utf8_read_char (utf8 cp ++ rest) = Ok (length (utf8 cp), cp).
Proof.
  intros [H1 H2]. unfold utf8.
  destruct (N.ltb_spec cp 128) as [L|L]; [|destruct (N.ltb_spec cp 2048) as [L2|L2]; [|destruct (N.ltb_spec cp 65536) as [L3|L3]]].
  - cbn [app utf8_read_char]. destruct (N.leb_spec 240 cp); [lia|]. destruct (N.leb_spec 224 cp); [lia|].
    destruct (N.leb_spec 192 cp); [lia|]. change 127 with (2 ^ 7 - 1). rewrite land_mod, N.mod_small by (cbn; lia). reflexivity.
  - pose proof (N.div_mod cp 64 ltac:(lia)); pose proof (N.mod_lt cp 64 ltac:(lia)).
    cbn [app utf8_read_char ch nth]. set (q := cp / 64) in *. set (r := cp mod 64) in *. clearbody q r.
    destruct (N.leb_spec 240 (192 + q)); [lia|]. destruct (N.leb_spec 224 (192 + q)); [lia|].
    destruct (N.leb_spec 192 (192 + q)); [|lia]. destruct (N.eqb_spec (128 + r) 0); [lia|].
    rewrite cont by lia. change 31 with (2 ^ 5 - 1). rewrite land_mod.
    rewrite lor_add by (change (2 ^ 6) with 64; lia). cbn [length]. do 2 f_equal. change (2 ^ 5) with 32. change (2 ^ 6) with 64.
    replace (192 + q) with (q + 6 * 32) by lia. rewrite N.mod_add, N.mod_small by lia. lia.
  - replace (cp / 4096) with (cp / 64 / 64) by (rewrite N.div_div by lia; reflexivity).
    divs cp. cbn [app utf8_read_char ch nth].
    set (a := cp / 64 / 64) in *. set (b := cp / 64 mod 64) in *. set (c := cp mod 64) in *.
    clearbody c b a. set (q := cp / 64) in *. clearbody q.
    destruct (N.leb_spec 240 (224 + a)); [lia|]. destruct (N.leb_spec 224 (224 + a)); [|lia].
    destruct (N.eqb_spec (128 + b) 0); [lia|]. destruct (N.eqb_spec (128 + c) 0); [lia|]. cbn [orb].
    rewrite !cont by lia. change 15 with (2 ^ 4 - 1). rewrite land_mod. change (2 ^ 4) with 16.
    replace (224 + a) with (a + 14 * 16) by lia. rewrite N.mod_add, N.mod_small by lia.
    assert (E : N.lor (N.shiftl a 12) (N.shiftl b 6) = N.shiftl (a * 64 + b) 6).
    { rewrite lor_add by (rewrite N.shiftl_mul_pow2; change (2 ^ 6) with 64; change (2 ^ 12) with 4096; change (2 ^ 18) with 262144; lia). rewrite !N.shiftl_mul_pow2. change (2 ^ 6) with 64; change (2 ^ 12) with 4096; change (2 ^ 18) with 262144; lia. }
    rewrite E, lor_add by (change (2 ^ 6) with 64; lia). cbn [length]. do 2 f_equal. change (2 ^ 6) with 64. lia.
  - replace (cp / 262144) with (cp / 64 / 64 / 64) by (rewrite !N.div_div by lia; reflexivity).
    replace (cp / 4096) with (cp / 64 / 64) by (rewrite N.div_div by lia; reflexivity).
    divs cp. cbn [app utf8_read_char ch nth].
    set (z := cp / 64 / 64 / 64) in *. set (a := cp / 64 / 64 mod 64) in *. set (b := cp / 64 mod 64) in *. set (c := cp mod 64) in *.
    clearbody c b a z. set (q2 := cp / 64 / 64) in *. clearbody q2. set (q := cp / 64) in *. clearbody q.
    destruct (N.leb_spec 240 (240 + z)); [|lia].
    destruct (N.eqb_spec (128 + a) 0); [lia|]. destruct (N.eqb_spec (128 + b) 0); [lia|]. destruct (N.eqb_spec (128 + c) 0); [lia|]. cbn [orb].
    rewrite !cont by lia. change 7 with (2 ^ 3 - 1). rewrite land_mod. change (2 ^ 3) with 8.
    assert (Hz : z < 8) by lia.
    replace (240 + z) with (z + 30 * 8) by lia. rewrite N.mod_add, N.mod_small by lia.
    assert (E : N.lor (N.shiftl z 18) (N.shiftl a 12) = N.shiftl (z * 64 + a) 12).
    { rewrite lor_add by (rewrite N.shiftl_mul_pow2; change (2 ^ 6) with 64; change (2 ^ 12) with 4096; change (2 ^ 18) with 262144; lia). rewrite !N.shiftl_mul_pow2. change (2 ^ 6) with 64; change (2 ^ 12) with 4096; change (2 ^ 18) with 262144; lia. }
    assert (E2 : N.lor (N.shiftl (z * 64 + a) 12) (N.shiftl b 6) = N.shiftl ((z * 64 + a) * 64 + b) 6).
    { rewrite lor_add by (rewrite N.shiftl_mul_pow2; change (2 ^ 6) with 64; change (2 ^ 12) with 4096; change (2 ^ 18) with 262144; lia). rewrite !N.shiftl_mul_pow2. change (2 ^ 6) with 64; change (2 ^ 12) with 4096; change (2 ^ 18) with 262144; lia. }
    rewrite E, E2, lor_add by (change (2 ^ 6) with 64; lia). cbn [length]. do 2 f_equal. change (2 ^ 6) with 64. lia.
Qed.
Lemma utf8_nonempty cp : exists n, length (utf8 cp) = S n.
Proof. unfold utf8. destruct (_ <? _); [|destruct (_ <? _); [|destruct (_ <? _)]]; cbn [length]; eauto. Qed.
Lemma utf8_strlen_ok l : forall fuel n, Forall scalar l -> (length (flat_map utf8 l) < fuel)%nat ->
  utf8_strlen_from fuel (flat_map utf8 l) n = Ok (length l + n)%nat.
Proof.
  induction l as [|cp l IH]; intros fuel n F Hf; destruct fuel as [|fuel]; try lia; cbn [flat_map utf8_strlen_from].
  - reflexivity.
  - inversion F; subst. rewrite utf8_decode by auto. cbn [bind]. destruct (utf8_nonempty cp) as [x Hx]. rewrite Hx.
    rewrite <- Hx, skipn_app, skipn_all, Nat.sub_diag, skipn_O, app_nil_l.
    cbn [flat_map] in Hf. rewrite app_length in Hf. rewrite IH by (auto; lia). cbn [length]. f_equal. lia.
Qed.

(* ---- C37 ------------------------------------------------------------------------- *)
Lemma b36_inj i j : i < 36 -> j < 36 -> nth (N.to_nat i) b36_keys 0 = nth (N.to_nat j) b36_keys 0 -> i = j.
Proof.
  intros Hi Hj E. apply N2Nat.inj. eapply (proj1 (NoDup_nth b36_keys 0)); auto; cbn [length b36_keys]; try lia.
  repeat (constructor; [cbn; intuition discriminate|]). constructor.
Qed.
Lemma seq_inj i j : i < 46656 -> j < 46656 -> unicode_get_sequence i = unicode_get_sequence j -> i = j.
Proof.
  intros Hi Hj E. unfold unicode_get_sequence in E. injection E as E1 E2 E3.
  apply b36_inj in E1; try (apply N.mod_lt; lia). apply b36_inj in E2; try (apply N.mod_lt; lia).
  apply b36_inj in E3; try (apply N.mod_lt; lia).
  assert (X : forall n, n / 1296 = n / 36 / 36) by (intros n; rewrite N.div_div by lia; reflexivity).
  rewrite !X in E1.
  pose proof (N.div_mod i 36 ltac:(lia)). pose proof (N.div_mod j 36 ltac:(lia)).
  pose proof (N.div_mod (i / 36) 36 ltac:(lia)). pose proof (N.div_mod (j / 36) 36 ltac:(lia)).
  assert (i / 36 / 36 < 36) by (rewrite N.div_div by lia; apply N.div_lt_upper_bound; lia).
  assert (j / 36 / 36 < 36) by (rewrite N.div_div by lia; apply N.div_lt_upper_bound; lia).
  rewrite !(N.mod_small (_ / 36 / 36)) in E1 by auto. lia.
Qed.
Definition total (runs : list (N * N)) : N := fold_right (fun r a => snd r + a) 0 runs.
Lemma runs_range runs : forall cp base x, runs_index runs cp base = Some x -> base <= x < base + total runs.
Proof.
  induction runs as [|[s n] r IH]; intros cp base x H; cbn [runs_index total fold_right snd] in *; [discriminate|].
  destruct (N.leb_spec s cp); cbn [andb] in H; [destruct (N.ltb_spec cp (s + n))|].
  - injection H as <-. fold (total r). lia.
  - apply IH in H. fold (total r). lia.
  - apply IH in H. fold (total r). lia.
Qed.
Lemma runs_inj runs : forall cp cp' base x, runs_index runs cp base = Some x -> runs_index runs cp' base = Some x -> cp = cp'.
Proof.
  assert (D : forall s n cp, (s <=? cp) && (cp <? s + n) = true <-> s <= cp < s + n).
  { intros. rewrite andb_true_iff, N.leb_le, N.ltb_lt. tauto. }
  induction runs as [|[s n] r IH]; intros cp cp' base x H H'; cbn [runs_index] in *; [discriminate|].
  destruct ((s <=? cp) && (cp <? s + n)) eqn:E, ((s <=? cp') && (cp' <? s + n)) eqn:E'; try apply D in E; try apply D in E'.
  - injection H as <-. injection H' as H'. lia.
  - injection H as <-. apply runs_range in H'. lia.
  - injection H' as <-. apply runs_range in H. lia.
  - eauto.
Qed.
Lemma total_small : total unicode_runs < 46656. Proof. vm_compute. reflexivity. Qed.
