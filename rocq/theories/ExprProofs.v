(* Proofs for the notation of macros (C58): the parser reads exactly what SpecExpr.v says. *)
From Coq Require Import String Lia.
From Verif Require Import Base Lib KeyTable Keys Types Str UnicodeTable MacroParse SpecNotation SpecText SpecBind SpecClient SpecExpr
  NotationProofs MacroProofs TextProofs BindProofs PropNotation PropClient.
Local Open Scope N_scope.
Local Open Scope list_scope.
Local Notation length := List.length.
Local Opaque parse_key_sequence us_rows unicode_runs unicode_lookup_index keycode_table.

(* ---- keys ------------------------------------------------------------------------------ *)
Lemma empty_name : scan_table keycode_table 0 0 [] = Some (29, 0).
Proof. vm_compute. reflexivity. Qed.
Lemma key_parses s c m : parse_key_sequence s = Some (c, m) <-> key_text s c m.
Proof.
  split.
  - intros H. pose proof H as H0. apply C34_only in H as [ls [nm [-> Hn]]]. destruct nm as [|x nm].
    + rewrite app_nil_r in *. destruct ls as [|l ls]; [discriminate|].
      assert (exists m0, denotes (l :: ls) m0) as [m0 D0].
      { destruct Hn as [[D _]|[[F _] _]]; [eauto|]. apply Forall_app in F as [F _]. now apply letters_denote. }
      Local Transparent parse_key_sequence.
      unfold parse_key_sequence in H0. change (dashed (l :: ls)) with (l :: 45 :: dashed ls) in H0 at 1.
      cbv beta match in H0. rewrite <- (app_nil_r (dashed (l :: ls))), (strip_dashed (l :: ls) 0 [] [] m0 denotes_nil D0) in H0 by discriminate.
      rewrite scan_mods, empty_name, N.lor_0_r in H0. injection H0 as <- <-. constructor; [discriminate|auto].
      Local Opaque parse_key_sequence.
    + destruct Hn as [[D Hn]|[D Hn]]; [eapply kt_name|eapply kt_shifted]; eauto; discriminate.
  - intros H. destruct H.
    + destruct H0; [eapply C34_name|eapply C34_alt_name]; eauto.
    + eapply C34_shifted_name; eauto.
    + destruct ls as [|l ls]; [congruence|]. Local Transparent parse_key_sequence. unfold parse_key_sequence. Local Opaque parse_key_sequence.
      change (dashed (l :: ls)) with (l :: 45 :: dashed ls) at 1. cbv beta match.
      rewrite <- (app_nil_r (dashed (l :: ls))), (strip_dashed (l :: ls) 0 [] [] m denotes_nil H0) by discriminate.
      rewrite scan_mods, empty_name. now rewrite N.lor_0_r.
Qed.
Lemma not_key s : parse_key_sequence s = None <-> ~ is_key s.
Proof.
  split.
  - intros H [c [m K]]. apply key_parses in K. congruence.
  - intros H. destruct (parse_key_sequence s) as [[c m]|] eqn:E; auto. destruct H. exists c, m. now apply key_parses.
Qed.

(* ---- pieces ---------------------------------------------------------------------------- *)
Lemma parts_tokens d s ns : parts d s ns -> tokens d s = ns.
Proof.
  unfold tokens. intros H. induction H.
  - reflexivity.
  - cbn [tokens_from]. now rewrite N.eqb_refl.
  - rewrite <- (app_nil_r n) at 1. rewrite tokens_skip, app_nil_r by auto. cbn [tokens_from].
    rewrite <- (rev_involutive n) at 2. destruct (rev n) eqn:E; [|reflexivity]. apply (f_equal (@rev N)) in E.
    rewrite rev_involutive in E. now subst.
  - rewrite tokens_skip, app_nil_r, tokens_flush by (auto; intros E; apply (f_equal (@rev N)) in E; rewrite rev_involutive in E; now subst).
    now rewrite rev_involutive, IHparts.
Qed.
Lemma parts_total d : forall s, exists ns, parts d s ns.
Proof.
  intros s. remember (length s) as n eqn:Hn. revert s Hn. induction n as [n IH] using lt_wf_ind. intros s ->.
  destruct (in_dec N.eq_dec d s) as [I|I].
  - apply split_in in I as [a [b [-> Ha]]]. destruct (IH (length b)) with (s := b) as [ns Hb]; auto.
    { rewrite app_length. cbn [length]. lia. }
    destruct a as [|x a]; [exists ns; now constructor|]. exists ((x :: a) :: ns). constructor; auto. discriminate.
  - destruct s as [|x s]; [exists []; constructor|]. exists [x :: s]. constructor; auto. discriminate.
Qed.
Lemma tokens_parts d s ns : tokens d s = ns <-> parts d s ns.
Proof.
  split; [|apply parts_tokens]. intros <-. destruct (parts_total d s) as [ns H]. now rewrite (parts_tokens _ _ _ H).
Qed.

(* ---- UTF-8 ----------------------------------------------------------------------------- *)
Lemma utf8_high cp b : scalar cp -> 128 <= cp -> In b (utf8 cp) -> 128 <= b.
Proof.
  intros _ H I. unfold utf8 in I. destruct (N.ltb_spec cp 128); [lia|].
  destruct (cp <? 2048); [|destruct (cp <? 65536)]; cbn [In] in I; repeat destruct I as [<-|I]; try lia; contradiction.
Qed.
Lemma utf8_low cp : cp < 128 -> utf8 cp = [cp].
Proof. intros H. unfold utf8. destruct (N.ltb_spec cp 128); auto; lia. Qed.
Lemma split_high (u : str) d : (forall b, In b u -> 128 <= b) -> d < 128 -> forall a b v, a ++ d :: b = u ++ v ->
  exists a', a = u ++ a' /\ v = a' ++ d :: b.
Proof.
  induction u as [|x u IH]; intros Hu Hd a b v E; cbn [app] in *; [eauto|].
  destruct a as [|y a]; cbn [app] in E.
  - injection E as -> _. exfalso. specialize (Hu x (or_introl eq_refl)). lia.
  - injection E as -> E. destruct (IH (fun b' I => Hu b' (or_intror I)) Hd _ _ _ E) as [a' [-> ->]]. eauto.
Qed.
Lemma utf8_split d : d < 128 -> forall cps a b, Forall scalar cps -> flat_map utf8 cps = a ++ d :: b -> utf8_text a /\ utf8_text b.
Proof.
  intros Hd. induction cps as [|cp cps IH]; intros a b F E; cbn [flat_map] in E; [destruct a; discriminate|].
  inversion F; subst. destruct (N.lt_ge_cases cp 128) as [Hc|Hc].
  - rewrite utf8_low in E by auto. cbn [app] in E. destruct a as [|x a].
    + injection E as _ E. split; [exists []; split; auto|]. exists cps. auto.
    + injection E as -> E. destruct (IH _ _ H2 E) as [[cs [F1 ->]] Hb]. split; auto. exists (x :: cs). split; [now constructor|].
      cbn [flat_map]. now rewrite utf8_low.
  - symmetry in E. apply split_high in E as [a' [-> E]]; auto.
    + destruct (IH _ _ H2 E) as [[cs [F1 ->]] Hb]. split; auto. exists (cp :: cs). split; [now constructor|]. reflexivity.
    + intros b' I. eapply utf8_high; eauto.
Qed.
Lemma text_split d a b : d < 128 -> utf8_text (a ++ d :: b) -> utf8_text a /\ utf8_text b.
Proof. intros Hd [cps [F E]]. symmetry in E. eapply utf8_split; eauto. Qed.
Lemma text_parts d s ns : d < 128 -> parts d s ns -> utf8_text s -> Forall utf8_text ns.
Proof.
  intros Hd H. induction H; intros T; auto.
  - apply IHparts. apply (text_split d []) in T; auto. apply T.
  - apply text_split in T as [T1 T2]; auto.
Qed.
Lemma text_nul s : utf8_text s -> ~ In 0 s.
Proof.
  intros [cps [F ->]] I. apply in_flat_map in I as [cp [I J]]. rewrite Forall_forall in F. pose proof (F _ I) as S.
  destruct (N.lt_ge_cases cp 128) as [Hc|Hc].
  - rewrite utf8_low in J by auto. destruct J as [->|[]]. unfold scalar in S. lia.
  - pose proof (utf8_high _ _ S Hc J). lia.
Qed.

(* ---- numbers --------------------------------------------------------------------------- *)
Lemma is_digit_iff c : is_digit c = true <-> digit c.
Proof. unfold is_digit, digit. rewrite andb_true_iff, !N.leb_le. tauto. Qed.
Lemma digits_fold ds : forall acc rest, Forall digit ds -> (forall c r, rest = c :: r -> ~ digit c) ->
  digits_val acc (ds ++ rest) = fold_left (fun a c => a * 10 + Z.of_N (c - 48))%Z ds acc.
Proof.
  induction ds as [|d ds IH]; intros acc rest F N; cbn [app fold_left].
  - destruct rest as [|c r]; auto. cbn [digits_val]. destruct (is_digit c) eqn:E; auto. apply is_digit_iff in E. now destruct (N c r eq_refl).
  - inversion F; subst. cbn [digits_val]. rewrite (proj2 (is_digit_iff d)) by auto. auto.
Qed.
Lemma digits_value ds rest : Forall digit ds -> (forall c r, rest = c :: r -> ~ digit c) -> digits_val 0 (ds ++ rest) = value ds.
Proof. intros. now apply digits_fold. Qed.
Definition atoi_rest (s : str) : Z :=
  match s with 45 :: r => (- digits_val 0 r)%Z | 43 :: r => digits_val 0 r | _ => digits_val 0 s end.
Lemma atoi_unfold s : atoi s = int_of (atoi_rest (drop_while isspace s)).
Proof. reflexivity. Qed.
Lemma atoi_rest_plain s : (forall c r, s = c :: r -> c <> 43 /\ c <> 45) -> atoi_rest s = digits_val 0 s.
Proof.
  intros H. destruct s as [|c r]; auto. destruct (H c r eq_refl) as [A B]. unfold atoi_rest.
  destruct c as [|p]; auto. do 6 (destruct p as [p|p|]; auto; try congruence).
Qed.
Lemma number_atoi s z : number s z -> atoi s = z.
Proof.
  intros H. destruct H as [ws ds rest W D R S|ws sg ds rest W G D R].
  - rewrite atoi_unfold, drop_over by now apply white_isspace.
    assert (N : forall c r, ds ++ rest = c :: r -> ~ white c /\ c <> 43 /\ c <> 45).
    { intros c r E. destruct ds as [|d ds]; [eauto|]. injection E as -> _. inversion D; subst. unfold digit, white in *. lia. }
    rewrite drop_stop.
    + rewrite atoi_rest_plain by (intros c r E; apply (N c r E)). now rewrite digits_value.
    + intros c r E. destruct (isspace c) eqn:X; auto. apply isspace_white in X. now destruct (N c r E).
  - rewrite atoi_unfold, drop_over by now apply white_isspace. rewrite drop_stop.
    + destruct G as [-> | ->]; unfold atoi_rest; rewrite digits_value by auto; reflexivity.
    + intros c r E. injection E as <- _. destruct G as [-> | ->]; reflexivity.
Qed.
Definition digit_dec c : {digit c} + {~ digit c}.
Proof. destruct (is_digit c) eqn:E; [left|right]; rewrite <- is_digit_iff; congruence. Defined.
Definition white_dec c : {white c} + {~ white c}.
Proof. destruct (isspace c) eqn:E; [left|right]; rewrite <- isspace_white; congruence. Defined.
Lemma number_total s : exists z, number s z.
Proof.
  destruct (leading white white_dec s) as [ws [t [-> [W T]]]].
  assert (D : (exists g r, (g = 43 \/ g = 45) /\ t = g :: r) \/ forall c r, t = c :: r -> c <> 43 /\ c <> 45).
  { destruct t as [|g r]; [right; discriminate|]. destruct (N.eq_dec g 43) as [->|A]; [left; eauto|].
    destruct (N.eq_dec g 45) as [->|B]; [left; eauto|]. right. intros c r' E. injection E as <- _. auto. }
  destruct D as [[g [r [G ->]]]|D].
  - destruct (leading digit digit_dec r) as [ds [rest [-> [F R]]]]. eexists. eapply number_signed; eauto.
  - destruct (leading digit digit_dec t) as [ds [rest [-> [F R]]]]. eexists. eapply number_plain; eauto.
    intros -> c r E. split; [eapply T; cbn [app]; eauto|eapply D; cbn [app]; eauto].
Qed.
Lemma number_iff s z : atoi s = z <-> number s z.
Proof. split; [|apply number_atoi]. intros <-. destruct (number_total s) as [z H]. now rewrite (number_atoi _ _ H). Qed.

(* ---- pauses ---------------------------------------------------------------------------- *)
Lemma skip_digits_over ds rest : Forall digit ds -> (forall c r, rest = c :: r -> ~ digit c) -> skip_digits (ds ++ rest) = rest.
Proof.
  induction ds as [|d ds IH]; intros F R; cbn [app].
  - destruct rest as [|c r]; auto. cbn [skip_digits]. destruct (is_digit c) eqn:E; auto. apply is_digit_iff in E. now destruct (R c r eq_refl).
  - inversion F; subst. cbn [skip_digits]. rewrite (proj2 (is_digit_iff d)) by auto. auto.
Qed.
Lemma pause_ok w : ~ In 0 w -> is_timeval w = true <-> pause_text w.
Proof.
  intros N. split.
  - unfold is_timeval. intros H. destruct (is_digit (ch w 0)) eqn:D; [|discriminate].
    destruct (skip_digits_split w) as [ds [E [F X]]]. specialize (X D). rewrite !andb_true_iff, orb_true_iff, !N.eqb_eq in H.
    destruct H as [[A B] C]. assert (N' : ~ In 0 (skip_digits w)) by (intros I; apply N; rewrite E; apply in_or_app; auto).
    destruct (skip_digits w) as [|a [|b r]]; unfold ch in *; cbn [nth] in *; try discriminate. subst a b.
    exists ds, r. repeat split; auto. destruct r as [|c r]; auto. right. cbn [nth] in C. destruct C as [->| ->]; eauto.
    exfalso. apply N'. cbn [In]. auto.
  - intros [ds [r [Hd [F [-> R]]]]]. unfold is_timeval. destruct ds as [|d ds]; [congruence|].
    unfold ch at 1. cbn [nth app]. inversion F; subst. rewrite (proj2 (is_digit_iff d)) by auto.
    change (d :: ds ++ bs "ms" ++ r) with ((d :: ds) ++ bs "ms" ++ r). rewrite skip_digits_over; auto.
    + destruct R as [->|[r' ->]]; reflexivity.
    + intros c r0 E. injection E as <- _. unfold digit. lia.
Qed.
Lemma not_pause w : ~ In 0 w -> is_timeval w = false <-> ~ pause_text w.
Proof. intros N. rewrite <- (pause_ok w N). destruct (is_timeval w); split; congruence. Qed.
Lemma pause_data w t : timeval_data w = t <-> pause_ms w t.
Proof.
  unfold pause_ms, timeval_data. split.
  - intros <-. exists (atoi w). split; auto. now apply number_iff.
  - intros [z [H ->]]. apply number_iff in H. now subst.
Qed.

(* ---- entries --------------------------------------------------------------------------- *)
Lemma add_entry_iff m t d m' : d < 65536 -> add_entry m t d = Some m' <-> m' = m ++ [mkM t d] /\ (length m' <= 256)%nat.
Proof.
  intros H. unfold add_entry. rewrite N.mod_small by auto. destruct (Nat.ltb_spec (length m) 256) as [L|L]; split.
  - intros E. injection E as <-. split; auto. rewrite app_length. cbn [length]. lia.
  - intros [-> _]. reflexivity.
  - discriminate.
  - intros [-> X]. rewrite app_length in X. cbn [length] in X. lia.
Qed.
Definition gentry (g : gitem) : mentry := match g with GKey c => mkM MHold c | GPause t => mkM MTimeout t end.
Lemma pause_lt w t : pause_ms w t -> t < 65536.
Proof. intros H. apply pause_data in H as <-. apply timeval_lt. Qed.
Lemma key_range s c m : key_text s c m -> c < 256 /\ m < 32.
Proof. intros H. apply key_parses in H. eapply parse_seq_range; eauto. Qed.
Lemma group_one k m m' : ~ In 0 k ->
  (if is_timeval k then add_entry m MTimeout (timeval_data k)
   else match parse_key_sequence k with Some (code, _) => add_entry m MHold code | None => None end) = Some m'
  <-> exists g, group_adds k g /\ m' = m ++ [gentry g] /\ (length m' <= 256)%nat.
Proof.
  intros N. destruct (is_timeval k) eqn:T.
  - apply pause_ok in T; auto. rewrite add_entry_iff by apply timeval_lt. split.
    + intros [-> L]. exists (GPause (timeval_data k)). split; [|now split]. constructor; auto. now apply pause_data.
    + intros [g [G [-> L]]]. destruct G as [w t P M|w c mm P K]; [|contradiction]. apply pause_data in M as <-. now split.
  - apply not_pause in T; auto. destruct (parse_key_sequence k) as [[c mm]|] eqn:K.
    + apply key_parses in K. pose proof (key_range _ _ _ K) as [R _]. rewrite add_entry_iff by lia. split.
      * intros [-> L]. exists (GKey c). split; [|now split]. econstructor; eauto.
      * intros [g [G [-> L]]]. destruct G as [w t P M|w c' mm' P K']; [contradiction|].
        apply key_parses in K. apply key_parses in K'. rewrite K in K'. injection K' as <- _. now split.
    + apply not_key in K. split; [discriminate|]. intros [g [G _]]. destruct G; [contradiction|]. destruct K. unfold is_key. eauto.
Qed.
Lemma group_ok ks : Forall (fun k => ~ In 0 k) ks -> forall m m', parse_group ks m = Some m' <->
  exists items, Forall2 group_adds ks items /\ m' = m ++ map gentry items ++ [mkM MRelease 0] /\ (length m' <= 256)%nat.
Proof.
  induction ks as [|k ks IH]; intros F m m'; cbn [parse_group].
  - rewrite add_entry_iff by lia. split.
    + intros [-> L]. exists []. split; auto.
    + intros [items [G [-> L]]]. inversion G; subst. auto.
  - inversion F as [|? ? N F']; subst. specialize (IH F').
    destruct (if is_timeval k then _ else _) as [m1|] eqn:E.
    + apply group_one in E as [g [G [-> L]]]; auto. rewrite IH. split.
      * intros [items [Gs [-> L']]]. exists (g :: items). split; [now constructor|]. split; [|auto]. cbn [map app]. now rewrite <- !app_assoc.
      * intros [items [Gs [-> L']]]. inversion Gs as [|? g' ? items' G' Gs']; subst.
        assert (g' = g) as ->.
        { destruct (proj2 (group_one k m (m ++ [gentry g]) N)); [eauto|].
          inversion G; inversion G'; subst; try contradiction.
          - f_equal. eapply pause_data in H0, H4. congruence.
          - f_equal. apply key_parses in H0, H4. congruence. }
        exists items'. split; auto. split; [|auto]. cbn [map app]. now rewrite <- !app_assoc.
    + split; [discriminate|]. intros [items [Gs [-> L']]]. inversion Gs as [|? g' ? items' G' Gs']; subst. exfalso.
      assert (X : exists g, group_adds k g /\ m ++ [gentry g'] = m ++ [gentry g] /\ (length (m ++ [gentry g']) <= 256)%nat).
      { exists g'. split; auto. split; auto. cbn [map app] in L'. rewrite app_length in *. cbn [length] in *. lia. }
      apply group_one in X; auto. congruence.
Qed.

(* ---- literal text ---------------------------------------------------------------------- *)
Lemma ascii_other c : c < 128 -> ~ (33 <= c <= 126) -> ascii_key keycode_table 0 c = None.
Proof.
  intros H1 H2. assert (X : forallb (fun c => ((33 <=? c) && (c <=? 126)) || match ascii_key keycode_table 0 c with None => true | _ => false end)
                              (map N.of_nat (seq 0 128)) = true) by (vm_compute; reflexivity).
  rewrite forallb_forall in X. specialize (X c). destruct (ascii_key keycode_table 0 c); auto.
  rewrite orb_false_r in X. assert (I : In c (map N.of_nat (seq 0 128))). { apply in_map_iff. exists (N.to_nat c). split; [lia|]. apply in_seq. lia. }
  specialize (X I). apply andb_true_iff in X as [A B]. apply N.leb_le in A. apply N.leb_le in B. tauto.
Qed.
Definition char_next (cp : N) (m : macro) : option macro :=
  if cp <? 128 then match ascii_key keycode_table 0 cp with Some d => add_entry m MKeySeq d | None => Some m end
  else match unicode_lookup_index cp with Some x => if 0 <? x then add_entry m MUnicode x else Some m | None => Some m end.
Lemma text_step f cp rest m : scalar cp -> parse_text (S f) (utf8 cp ++ rest) m =
  match char_next cp m with None => Ok None | Some m' => parse_text f rest m' end.
Proof.
  intros S. cbn [parse_text]. rewrite utf8_decode by auto. cbn [bind]. destruct (utf8_nonempty cp) as [n Hn].
  assert (E : forall A (a b : A), match length (utf8 cp) with O => a | S _ => b end = b) by (intros; now rewrite Hn).
  rewrite E, skipn_utf8, utf8_length by auto. unfold char_next. destruct (N.ltb_spec cp 128) as [L|L]; cbn [andb]; auto.
  rewrite utf8_low by auto. cbn [app]. unfold ch. cbn [nth]. reflexivity.
Qed.
Lemma char_adds_fun cp es es' : char_adds cp es -> char_adds cp es' -> es = es'.
Proof.
  intros H H'. destruct H as [c code sh K|c idx T P|c K T]; inversion H' as [c' code' sh' K'|c' idx' T' P'|c' K' T']; subst.
  - apply us_find_complete in K, K'. rewrite K in K'. injection K' as <- <-. reflexivity.
  - apply us_low in K. apply table_high in T'. lia.
  - destruct (K' _ _ K).
  - apply us_low in K'. apply table_high in T. lia.
  - apply table_index in T, T'. rewrite T in T'. now injection T' as <-.
  - specialize (T' _ T). lia.
  - destruct (K _ _ K').
  - specialize (T _ T'). lia.
  - reflexivity.
Qed.
Lemma char_ok' cp m : scalar cp -> exists es, char_adds cp es /\
  forall m', char_next cp m = Some m' <-> m' = m ++ flat_map encode es /\ ((length m' <= 256)%nat \/ es = []).
Proof.
  intros S. unfold char_next. destruct (N.ltb_spec cp 128) as [L|L].
  - assert (T : forall idx, ~ in_table cp idx) by (intros idx X; apply table_high in X; lia).
    destruct (N.le_gt_cases 33 cp) as [A|A]; [destruct (N.le_gt_cases cp 126) as [B|B]|].
    + destruct (ascii_us cp (conj A B)) as [[code sh] [P1 [P2 P3]]]. rewrite P3. apply us_find_ok in P1.
      exists [EKey (if sh then 4 else 0) code]. split; [now constructor|]. intros m'. cbn [fst snd] in P2. unfold char_data. cbn [fst snd].
      rewrite add_entry_iff by (destruct sh; lia). cbn [flat_map encode app].
      replace ((if sh then 4 else 0) * 256 + code) with ((if sh then 4 * 256 else 0) + code) by (destruct sh; lia).
      split; intros [E X]; split; auto. destruct X; [auto|discriminate].
    + rewrite ascii_other by lia. exists []. split.
      * constructor; [|intros idx X; destruct (T _ X)]. intros code sh K. apply us_low in K. lia.
      * intros m'. cbn [flat_map]. rewrite app_nil_r. split; [intros E; injection E as <-|intros [-> _]]; auto.
    + rewrite ascii_other by lia. exists []. split.
      * constructor; [|intros idx X; destruct (T _ X)]. intros code sh K. apply us_low in K. lia.
      * intros m'. cbn [flat_map]. rewrite app_nil_r. split; [intros E; injection E as <-|intros [-> _]]; auto.
  - assert (K : forall code sh, ~ us_key cp code sh) by (intros code sh X; apply us_low in X; lia).
    destruct (unicode_lookup_index cp) as [x|] eqn:E.
    + pose proof E as E0. apply table_index in E. pose proof (table_high _ _ E) as [_ R]. destruct (N.ltb_spec 0 x) as [P|P].
      * exists [EChar x]. split; [now constructor|]. intros m'. rewrite add_entry_iff by lia. cbn [flat_map encode app].
        split; intros [H X]; split; auto. destruct X; [auto|discriminate].
      * exists []. split. { constructor; auto. intros idx X. apply table_index in X. rewrite E0 in X. injection X as <-. lia. }
        intros m'. cbn [flat_map]. rewrite app_nil_r. split; [intros X; injection X as <-|intros [-> _]]; auto.
    + exists []. split. { constructor; auto. intros idx X. apply table_index in X. congruence. }
      intros m'. cbn [flat_map]. rewrite app_nil_r. split; [intros X; injection X as <-|intros [-> _]]; auto.
Qed.
Lemma text_ok cps : forall fuel m, Forall scalar cps -> (length cps < fuel)%nat -> (length m <= 256)%nat ->
  exists ess o, Forall2 char_adds cps ess /\ parse_text fuel (flat_map utf8 cps) m = Ok o
    /\ forall m', o = Some m' <-> m' = m ++ flat_map encode (concat ess) /\ (length m' <= 256)%nat.
Proof.
  induction cps as [|cp cps IH]; intros fuel m F Hf Hm; (destruct fuel as [|fuel]; [lia|]).
  - exists [], (Some m). split; [constructor|]. split; [reflexivity|]. intros m'. cbn [concat flat_map]. rewrite app_nil_r.
    split; [intros E; injection E as <-; auto|intros [-> _]; auto].
  - inversion F; subst. cbn [flat_map]. rewrite text_step by auto. destruct (char_ok' cp m H1) as [es [C X]]. cbn [length] in Hf.
    destruct (char_next cp m) as [m1|] eqn:E.
    + destruct (proj1 (X m1) eq_refl) as [E1 L1].
      assert (L : (length m1 <= 256)%nat). { destruct L1 as [L1| ->]; auto. subst m1. cbn [flat_map]. now rewrite app_nil_r. }
      destruct (IH fuel m1 H2 ltac:(lia) L) as [ess [o [C' [P Y]]]]. exists (es :: ess), o. split; [now constructor|]. split; auto.
      intros m'. rewrite Y, E1. cbn [concat]. rewrite flat_map_app, <- app_assoc. tauto.
    + assert (exists ess, Forall2 char_adds cps ess) as [ess C'].
      { clear - H2. induction H2 as [|c cs S _ [ess C']]; [exists []; constructor|]. destruct (char_ok' c [] S) as [e [C _]].
        exists (e :: ess). now constructor. }
      exists (es :: ess), None. split; [now constructor|]. split; auto. intros m'. split; [discriminate|]. intros [-> L].
      cbn [concat] in L. rewrite flat_map_app in L. rewrite !app_length in L.
      assert (@None macro = Some (m ++ flat_map encode es)); [|congruence]. apply X. split; auto. left. rewrite app_length. lia.
Qed.

(* ---- words ----------------------------------------------------------------------------- *)
Lemma has_char_iff c s : has_char c s = true <-> In c s.
Proof.
  unfold has_char. rewrite existsb_exists. split.
  - intros [x [I E]]. apply N.eqb_eq in E. now subst.
  - intros I. exists c. split; auto. apply N.eqb_refl.
Qed.
Lemma utf8_inj a : forall b, Forall scalar a -> Forall scalar b -> flat_map utf8 a = flat_map utf8 b -> a = b.
Proof.
  induction a as [|x a IH]; intros b Fa Fb E.
  - destruct b as [|y b]; auto. cbn [flat_map] in E. destruct (utf8_nonempty y) as [n Hn]. destruct (utf8 y); discriminate.
  - inversion Fa; subst. destruct b as [|y b]; [cbn [flat_map] in E; destruct (utf8_nonempty x) as [n Hn]; destruct (utf8 x); discriminate|].
    inversion Fb; subst. cbn [flat_map] in E.
    pose proof (utf8_decode x (flat_map utf8 a) H1) as D1. rewrite E, (utf8_decode y (flat_map utf8 b)) in D1 by auto.
    injection D1 as _ ->. apply app_inv_head in E. f_equal. auto.
Qed.
Lemma Forall2_fun {A B} (R : A -> B -> Prop) : (forall a b b', R a b -> R a b' -> b = b') -> forall l m m', Forall2 R l m -> Forall2 R l m' -> m = m'.
Proof. intros H l m m' F. revert m'. induction F; intros m' F'; inversion F'; subst; auto. f_equal; eauto. Qed.
Lemma group_adds_fun k g g' : group_adds k g -> group_adds k g' -> g = g'.
Proof.
  intros G G'. inversion G; inversion G'; subst; try contradiction.
  - f_equal. eapply pause_data in H0, H4. congruence.
  - f_equal. apply key_parses in H0, H4. congruence.
Qed.
Lemma word_ok w m : utf8_text w -> (length m <= 256)%nat ->
  exists o, parse_token w m = Ok o
    /\ forall m', o = Some m' <-> exists es, word_adds w es /\ m' = m ++ flat_map encode es /\ (length m' <= 256)%nat.
Proof.
  intros T Hm. pose proof (text_nul _ T) as N. unfold parse_token. destruct (parse_key_sequence w) as [[c mm]|] eqn:K.
  - apply key_parses in K. pose proof (key_range _ _ _ K) as [R1 R2]. eexists. split; [reflexivity|]. intros m'.
    assert (X : N.lor (N.shiftl mm 8) c = mm * 256 + c) by (rewrite lor_add by (cbn; lia); reflexivity).
    rewrite X, add_entry_iff by lia. split.
    + intros [-> L]. exists [EKey mm c]. split; [econstructor; eauto|]. auto.
    + intros [es [A [-> L]]]. destruct A as [w c' m1 K'|w ks items NK|w t NK|cps ess NK]; try (destruct NK; now exists c, mm).
      apply key_parses in K. apply key_parses in K'. rewrite K in K'. injection K' as <- <-. auto.
  - apply not_key in K. destruct (has_char 43 w) eqn:H43.
    + apply has_char_iff in H43. eexists. split; [reflexivity|]. intros m'. pose proof (eq_refl (tokens 43 w)) as P. apply tokens_parts in P.
      assert (F : Forall (fun k => ~ In 0 k) (tokens 43 w)).
      { eapply Forall_impl; [|eapply (text_parts 43); eauto; lia]. exact text_nul. }
      rewrite group_ok by auto. split.
      * intros [items [G [-> L]]]. exists [EGroup items]. split; [eapply wa_group; eauto|]. cbn [flat_map encode app]. rewrite app_nil_r. auto.
      * intros [es [A [-> L]]]. destruct A as [w c' m1 K'|w ks items NK I Q G|w t NK NI|cps ess NK NI].
        -- destruct K. now exists c', m1.
        -- apply tokens_parts in Q. subst ks. exists items. split; auto. cbn [flat_map encode app] in *. rewrite app_nil_r in *. auto.
        -- contradiction.
        -- contradiction.
    + assert (H43' : ~ In 43 w) by (rewrite <- has_char_iff; congruence). destruct (is_timeval w) eqn:P.
      * apply pause_ok in P; auto. eexists. split; [reflexivity|]. intros m'. rewrite add_entry_iff by apply timeval_lt. split.
        -- intros [-> L]. exists [EPause (timeval_data w)]. split; [|auto]. apply wa_pause; auto. now apply pause_data.
        -- intros [es [A [-> L]]]. destruct A as [w c' m1 K'|w ks items NK I Q G|w t NK NI Q M|cps ess NK NI NP].
           ++ destruct K. now exists c', m1.
           ++ contradiction.
           ++ apply pause_data in M as <-. auto.
           ++ contradiction.
      * apply not_pause in P; auto. destruct T as [cps [F ->]].
        destruct (text_ok cps (S (length (flat_map utf8 cps))) m F ltac:(pose proof (text_fuel cps F); lia) Hm) as [ess [o [C [E X]]]].
        exists o. split; auto. intros m'. rewrite X. split.
        -- intros [-> L]. exists (concat ess). split; [|auto]. now apply wa_text.
        -- intros [es [A [-> L]]]. remember (flat_map utf8 cps) as w eqn:Ew. destruct A as [w c' m1 K'|w ks items NK I Q G|w t NK NI Q M|cps' ess' NK NI NP F' C'].
           ++ destruct K. now exists c', m1.
           ++ contradiction.
           ++ contradiction.
           ++ apply utf8_inj in Ew; auto. subst cps'. now rewrite (Forall2_fun _ char_adds_fun _ _ _ C C').
Qed.
Lemma word_adds_total_m w es : word_adds w es -> utf8_text w -> forall es', word_adds w es' -> flat_map encode es = flat_map encode es'.
Proof.
  intros A T es' A'.
  inversion A as [w1 c m K|w1 ks items NK I P G|w1 t NK NI P M|cps ess NK NI NP F C]; subst;
  inversion A' as [w2 c' m' K'|w2 ks' items' NK' I' P' G'|w2 t' NK' NI' P' M'|cps' ess' NK' NI' NP' F' C']; subst; try contradiction;
  try (match goal with K : key_text _ ?c ?m, NK : ~ is_key _ |- _ => destruct NK; now exists c, m end).
  - apply key_parses in K, K'. congruence.
  - apply tokens_parts in P, P'. subst. now rewrite (Forall2_fun _ group_adds_fun _ _ _ G G').
  - apply pause_data in M, M'. congruence.
  - apply utf8_inj in H; auto. subst. now rewrite (Forall2_fun _ char_adds_fun _ _ _ C C').
Qed.
Lemma words_ok ws : Forall utf8_text ws -> forall m, (length m <= 256)%nat ->
  exists o, parse_tokens ws m = Ok o
    /\ forall m', o = Some m' <-> exists ess, Forall2 word_adds ws ess /\ m' = m ++ flat_map encode (concat ess) /\ (length m' <= 256)%nat.
Proof.
  induction ws as [|w ws IH]; intros F m Hm; cbn [parse_tokens].
  - eexists. split; [reflexivity|]. intros m'. split.
    + intros E. injection E as <-. exists []. cbn [concat flat_map]. rewrite app_nil_r. auto.
    + intros [ess [G [-> L]]]. inversion G; subst. cbn [concat flat_map]. now rewrite app_nil_r.
  - inversion F; subst. destruct (word_ok w m H1 Hm) as [o [E X]]. rewrite E. cbn [bind]. destruct o as [m1|].
    + destruct (proj1 (X m1) eq_refl) as [es [A [E1 L1]]]. destruct (IH H2 m1 L1) as [o [E2 Y]]. exists o. split; auto.
      intros m'. rewrite Y, E1. split.
      * intros [ess [G [-> L]]]. exists (es :: ess). split; [now constructor|]. cbn [concat]. rewrite flat_map_app, app_assoc. split; auto.
      * intros [ess [G [-> L]]]. inversion G as [|? es' ? ess' A' G']; subst. exists ess'. split; auto. cbn [concat] in *. rewrite flat_map_app in *.
        rewrite (word_adds_total_m _ _ A H1 _ A'). rewrite <- app_assoc. auto.
    + exists None. split; auto. intros m'. split; [discriminate|]. intros [ess [G [-> L]]]. inversion G as [|? es' ? ess' A' G']; subst.
      cbn [concat] in L. rewrite flat_map_app, !app_length in L.
      assert (@None macro = Some (m ++ flat_map encode es')); [|congruence]. apply X. exists es'. split; auto. split; auto. rewrite app_length. lia.
Qed.
Lemma macro_ok s : utf8_text s -> exists o, macro_parse s = Ok o
  /\ forall m, o = Some m <-> exists es, macro_text s es /\ macro_fits es /\ m = flat_map encode es.
Proof.
  intros T. pose proof (eq_refl (tokens 32 s)) as P. apply tokens_parts in P.
  pose proof (text_parts 32 _ _ ltac:(lia) P T) as F. destruct (words_ok _ F [] ltac:(cbn; lia)) as [o [E X]].
  exists o. split; auto. intros m. rewrite X. unfold macro_fits. split.
  - intros [ess [G [-> L]]]. exists (concat ess). split; [|split; auto]. exists (tokens 32 s), ess. auto.
  - intros [es [[ws [ess [Q [G ->]]]] [L ->]]]. apply tokens_parts in Q. subst ws. exists ess. auto.
Qed.
