(* C54, C55: text and macros sent by a client. *)
From Coq Require Import String.
From Verif Require Import Base Lib Types Keys KeyTable Kbd Str MacroExec MacroParse UnicodeTable Config Match Device Daemon SpecNotation
  NotationProofs MacroProofs SpecStuck MacroLife SpecClient.
Local Open Scope N_scope.
Local Open Scope list_scope.
Local Notation length := List.length.

(* ---- the compose table ------------------------------------------------------------------- *)
Lemma runs_index_first runs : forall cp base x, runs_index runs cp base = Some x ->
  exists before first n after, runs = before ++ (first, n) :: after /\ first <= cp < first + n
    /\ x = base + run_sizes before + (cp - first).
Proof.
  induction runs as [|[f n] runs IH]; intros cp base x H; cbn [runs_index] in H; [discriminate|].
  destruct ((f <=? cp) && (cp <? f + n)) eqn:E.
  - injection H as <-. apply andb_true_iff in E as [E1 E2]. apply N.leb_le in E1. apply N.ltb_lt in E2.
    exists [], f, n, runs. repeat split; auto. cbn. lia.
  - apply IH in H as (b & f' & n' & a & -> & H1 & ->). exists ((f, n) :: b), f', n', a. split; [reflexivity|]. split; auto.
    cbn [run_sizes fold_right snd]. fold (run_sizes b). lia.
Qed.
(* the runs do not overlap and lie above ASCII *)
Fixpoint disjoint (runs : list (N * N)) : bool :=
  match runs with
  | [] => true
  | (f, n) :: r => (128 <=? f) && forallb (fun x => (f + n <=? fst x) || (fst x + snd x <=? f)) r && disjoint r
  end.
Lemma table_disjoint : disjoint unicode_runs = true. Proof. vm_compute. reflexivity. Qed.
Lemma disjoint_low runs : forall f n after before, disjoint runs = true -> runs = before ++ (f, n) :: after -> 128 <= f.
Proof.
  induction runs as [|[f0 n0] runs IH]; intros f n after before H E; [now destruct before|].
  cbn [disjoint] in H. apply andb_true_iff in H as [H H2]. apply andb_true_iff in H as [H1 _]. apply N.leb_le in H1.
  destruct before as [|[f1 n1] before]; cbn [app] in E; injection E as -> -> E; eauto.
Qed.
Lemma runs_index_found runs : forall cp base before f n after, disjoint runs = true ->
  runs = before ++ (f, n) :: after -> f <= cp < f + n -> runs_index runs cp base = Some (base + run_sizes before + (cp - f)).
Proof.
  induction runs as [|[f0 n0] runs IH]; intros cp base before f n after H E Hc; [now destruct before|].
  cbn [disjoint] in H. apply andb_true_iff in H as [H H2]. apply andb_true_iff in H as [_ H1]. cbn [runs_index].
  destruct before as [|[f1 n1] before]; cbn [app] in E.
  - injection E as -> -> ->. destruct (N.leb_spec f cp); [|lia]. destruct (N.ltb_spec cp (f + n)); [|lia]. cbn [andb]. f_equal. cbn. lia.
  - injection E as -> -> E. rewrite forallb_forall in H1. specialize (H1 (f, n)).
    rewrite E in H1 at 1. specialize (H1 ltac:(apply in_app_iff; right; now left)). cbn [fst snd] in H1.
    rewrite orb_true_iff, !N.leb_le in H1.
    replace ((f1 <=? cp) && (cp <? f1 + n1)) with false
      by (symmetry; apply andb_false_iff; destruct H1; [right; apply N.ltb_ge|left; apply N.leb_gt]; lia).
    rewrite (IH _ _ _ _ _ _ H2 E Hc). f_equal.
    cbn [run_sizes fold_right snd]. fold (run_sizes before). lia.
Qed.
Lemma table_index cp idx : unicode_lookup_index cp = Some idx <-> in_table cp idx.
Proof.
  split.
  - intros H. apply runs_index_first in H as (b & f & n & a & E & H1 & ->). exists b, f, n, a. repeat split; auto; lia.
  - intros (b & f & n & a & E & H1 & ->). unfold unicode_lookup_index. erewrite runs_index_found; eauto using table_disjoint. f_equal; lia.
Qed.
Lemma table_high cp idx : in_table cp idx -> 128 <= cp /\ idx < 46656.
Proof.
  intros H. split.
  - destruct H as (b & f & n & a & E & H1 & _). pose proof (disjoint_low _ _ _ _ _ table_disjoint E). lia.
  - apply table_index in H. apply runs_range in H. pose proof total_small. lia.
Qed.

(* ---- characters ---------------------------------------------------------------------------- *)
Lemma us_low c code sh : us_key c code sh -> 33 <= c <= 126.
Proof.
  intros (f & p & s & i & H1 & H2 & _ & <-).
  assert (X : forallb (fun '(f, p, s) => forallb (fun i => (33 <=? nth i p 0) && (nth i p 0 <=? 126) && (33 <=? nth i s 0) && (nth i s 0 <=? 126)) (seq 0 (length p))) us_rows = true)
    by (vm_compute; reflexivity).
  rewrite forallb_forall in X. specialize (X _ H1). cbv beta iota in X. rewrite forallb_forall in X. specialize (X i ltac:(apply in_seq; lia)).
  rewrite !andb_true_iff, !N.leb_le in X. destruct sh; lia.
Qed.
Lemma us_find_complete c code sh : us_key c code sh -> us_find us_rows c = Some (code, sh).
Proof.
  intros [f [p [s [i [H1 [H2 [-> H4]]]]]]].
  assert (Y : forallb (fun '(f, p, s) => forallb (fun i =>
      match us_find us_rows (nth i p 0), us_find us_rows (nth i s 0) with
      | Some (c1, b1), Some (c2, b2) => (c1 =? f + N.of_nat i) && negb b1 && (c2 =? f + N.of_nat i) && b2
      | _, _ => false end) (seq 0 (length p))) us_rows = true) by (vm_compute; reflexivity).
  rewrite forallb_forall in Y. specialize (Y _ H1). cbv beta iota in Y. rewrite forallb_forall in Y.
  specialize (Y i ltac:(apply in_seq; lia)). destruct (us_find us_rows (nth i p 0)) as [[c1 b1]|] eqn:E1; [|discriminate].
  destruct (us_find us_rows (nth i s 0)) as [[c2 b2]|] eqn:E2; [|discriminate].
  rewrite !andb_true_iff, !N.eqb_eq, negb_true_iff in Y. destruct Y as [[[-> ->] ->] ->]. destruct sh; congruence.
Qed.
(* how the code reads single bytes *)
Lemma ascii_read c : 0 < c < 128 ->
  match us_find us_rows c with
  | Some (code, sh) => parse_key_sequence [c] = Some (code, if sh then 4 else 0)
  | None => parse_key_sequence [c] = None
  end.
Proof.
  intros H.
  assert (X : forallb (fun c => match us_find us_rows c, parse_key_sequence [c] with
                     | Some (code, sh), Some (code', m) => (code =? code') && (m =? if sh then 4 else 0)
                     | None, None => true | _, _ => false end) (map N.of_nat (seq 1 127)) = true) by (vm_compute; reflexivity).
  rewrite forallb_forall in X. specialize (X c ltac:(apply in_map_iff; exists (N.to_nat c); split; [lia|apply in_seq; lia])).
  destruct (us_find us_rows c) as [[code sh]|]; destruct (parse_key_sequence [c]) as [[code' m]|]; try discriminate X; auto.
  apply andb_true_iff in X as [X1 X2]. apply N.eqb_eq in X1. apply N.eqb_eq in X2. now subst.
Qed.
Lemma utf8_length cp : scalar cp -> Nat.eqb (length (utf8 cp)) 1 = (cp <? 128).
Proof.
  intros _. unfold utf8. destruct (cp <? 128); [reflexivity|]. destruct (cp <? 2048); [reflexivity|]. now destruct (cp <? 65536).
Qed.
Lemma set_out_id d : set_d_out (d_out d) d = d. Proof. now destruct d. Qed.
Lemma set_out_out a b d : set_d_out a (set_d_out b d) = set_d_out a d. Proof. reflexivity. Qed.
Lemma taps_sent l : forall d, fold_left (fun d c => tap c d) l d = set_d_out (rev (flat_map press_release l) ++ d_out d) d.
Proof.
  induction l as [|c l IH]; intros d; cbn [fold_left flat_map]; [cbn [rev app]; now rewrite set_out_id|].
  rewrite IH. unfold tap, vemit. rewrite !set_out_out. cbn [d_out set_d_out]. f_equal. rewrite rev_app_distr, <- app_assoc. reflexivity.
Qed.
Local Opaque parse_key_sequence us_rows unicode_runs unicode_lookup_index.
(* a character has at most one way of being typed, and this is what happens *)
Lemma char_ok cp evs d : scalar cp -> char_typed cp evs ->
  input_char (length (utf8 cp)) cp d = (set_d_out (rev evs ++ d_out d) d, true).
Proof.
  intros Hs H. unfold input_char. rewrite (utf8_length cp Hs). unfold scalar in Hs. destruct (N.ltb_spec cp 128) as [Hl|Hl].
  - destruct (N.eqb_spec cp 0); [lia|]. pose proof (ascii_read cp ltac:(lia)) as R.
    assert (NT : forall idx, ~ in_table cp idx) by (intros idx X; apply table_high in X as [X _]; lia).
    inversion H as [c code U|c code U| | | |c idx U]; subst.
    + apply us_find_complete in U. rewrite U in R. rewrite R. reflexivity.
    + apply us_find_complete in U. rewrite U in R. rewrite R. reflexivity.
    + assert (P : parse_key_sequence [32] = None) by (vm_compute; reflexivity). rewrite P. reflexivity.
    + assert (P : parse_key_sequence [10] = None) by (vm_compute; reflexivity). rewrite P. reflexivity.
    + assert (P : parse_key_sequence [9] = None) by (vm_compute; reflexivity). rewrite P. reflexivity.
    + elim (NT _ U).
  - inversion H as [c code U|c code U| | | |c idx U]; subst; try (apply us_low in U; lia); try lia.
    pose proof (proj2 (table_high _ _ U)). apply table_index in U. rewrite U. rewrite taps_sent, compose_ok by auto. reflexivity.
Qed.
Lemma char_bad cp d : scalar cp -> untypable cp -> input_char (length (utf8 cp)) cp d = (d, false).
Proof.
  intros Hs H. unfold input_char. rewrite (utf8_length cp Hs).
  assert (NT : unicode_lookup_index cp = None).
  { destruct (unicode_lookup_index cp) as [i|] eqn:E; auto. apply table_index in E. elim (H _ (ct_compose _ _ E)). }
  rewrite NT. unfold scalar in Hs. destruct (N.ltb_spec cp 128) as [Hl|Hl]; auto.
  destruct (N.eqb_spec cp 0); [lia|]. pose proof (ascii_read cp ltac:(lia)) as R.
  destruct (us_find us_rows cp) as [[code sh]|] eqn:E.
  { apply us_find_ok in E. destruct sh; [elim (H _ (ct_shifted _ _ E))|elim (H _ (ct_key _ _ E))]. }
  rewrite R. destruct (N.eqb_spec cp 32) as [->|]; [elim (H _ ct_blank)|]. destruct (N.eqb_spec cp 10) as [->|]; [elim (H _ ct_newline)|].
  destruct (N.eqb_spec cp 9) as [->|]; [elim (H _ ct_tab)|]. reflexivity.
Qed.
Lemma skipn_utf8 cp r : skipn (length (utf8 cp)) (utf8 cp ++ r) = r.
Proof. generalize (utf8 cp). intros l. induction l; cbn; auto. Qed.
Lemma input_step fuel cp rest t d : scalar cp ->
  input (S fuel) (utf8 cp ++ rest) t d =
    let '(d1, ok) := input_char (length (utf8 cp)) cp d in
    if ok then input fuel rest t (if t =? 0 then d1 else vemit (VSleep t) d1) else Ok (d1, false).
Proof.
  intros Hs. cbn [input]. rewrite utf8_decode by auto. cbn [bind]. rewrite skipn_utf8.
  destruct (utf8_nonempty cp) as [n ->]. reflexivity.
Qed.
Lemma input_types t : forall cps evss rest fuel d, Forall scalar cps -> Forall2 char_typed cps evss ->
  input (length cps + fuel) (flat_map utf8 cps ++ rest) t d =
  input fuel rest t (set_d_out (rev (flat_map (paused t) evss) ++ d_out d) d).
Proof.
  induction cps as [|cp cps IH]; intros evss rest fuel d Hs H; inversion H; subst; cbn [flat_map length plus].
  - cbn [rev app]. now rewrite set_out_id.
  - inversion Hs; subst. rewrite <- app_assoc, input_step by auto. rewrite char_ok with (evs := y) by auto. cbv beta iota zeta.
    rewrite (IH l') by auto. f_equal. unfold paused. destruct (t =? 0); unfold vemit; rewrite ?set_out_out; cbn [d_out set_d_out]; f_equal.
    + rewrite app_nil_r, rev_app_distr, <- app_assoc. reflexivity.
    + rewrite !rev_app_distr, <- !app_assoc. reflexivity.
Qed.
Lemma upd_app {A} (a : list A) x y b : upd (length a) x (a ++ y :: b) = a ++ x :: b.
Proof. induction a as [|z a IH]; cbn [length app upd]; [reflexivity|]. now rewrite IH. Qed.
Lemma cstr_app a b : ~ In 0 a -> cstr (a ++ 0 :: b) = a.
Proof.
  induction a as [|x a IH]; intros H; cbn [app cstr]; [reflexivity|]. destruct (N.eqb_spec x 0) as [->|]; [elim H; now left|].
  rewrite IH; auto. intros X. apply H. now right.
Qed.
Lemma message_text m text : carries m text ->
  (4096 <=? i_sz m) = false /\ exists rest, upd (N.to_nat (i_sz m)) 0 (i_data m) = text ++ 0 :: rest /\ cstr (text ++ 0 :: rest) = text.
Proof.
  intros (rest & E & Es & El & Ht & Hz). split; [apply N.leb_gt; lia|]. rewrite Es, Nat2N.id, E. rewrite E, app_length in El.
  destruct rest as [|y rest]; [cbn [length] in El; lia|]. exists rest. rewrite upd_app. split; [reflexivity|]. now apply cstr_app.
Qed.
Lemma text_fuel cps : Forall scalar cps -> (length cps <= length (flat_map utf8 cps))%nat.
Proof.
  induction 1 as [|cp cps H _ IH]; cbn [flat_map length]; [lia|]. rewrite app_length. destruct (utf8_nonempty cp) as [n ->]. lia.
Qed.

(* ---- C54 ------------------------------------------------------------------------------------ *)
(* `keyd input`: every character of the text is typed, in order, and nothing else is sent
   or changed ... *)
Theorem C54_types : forall wr con m texts grabs d cps evss,
  i_type m = IInput -> carries m (flat_map utf8 cps) -> i_timeout m <= 1000000 ->
  Forall scalar cps -> Forall2 char_typed cps evss ->
  exists d', handle_client wr con m texts grabs d = Ok d' /\
    only_sent d d' (flat_map (paused (i_timeout m)) evss ++ [VReply con true]).
Proof.
  intros wr con m texts grabs d cps evss Ht Hc Hto Hs H. destruct (message_text _ _ Hc) as [Hsz [rest [E1 E2]]].
  unfold handle_client. rewrite Hsz, E1, E2, Ht. cbv zeta. replace (1000000 <? i_timeout m) with false by (symmetry; apply N.ltb_ge; lia).
  pose proof (text_fuel cps Hs) as L.
  replace (S (length (flat_map utf8 cps))) with (length cps + S (length (flat_map utf8 cps) - length cps))%nat by lia.
  pose proof (input_types (i_timeout m) cps evss [] (S (length (flat_map utf8 cps) - length cps)) d Hs H) as R.
  rewrite app_nil_r in R. rewrite R. cbn [input utf8_read_char bind]. eexists. split; [reflexivity|].
  unfold only_sent, vemit. rewrite set_out_out. cbn [d_out set_d_out]. f_equal. rewrite rev_app_distr. reflexivity.
Qed.
(* ... up to the first character that cannot be typed. *)
Theorem C54_stops : forall wr con m texts grabs d cps evss bad rest,
  i_type m = IInput -> carries m (flat_map utf8 (cps ++ bad :: rest)) -> i_timeout m <= 1000000 ->
  Forall scalar cps -> Forall2 char_typed cps evss -> scalar bad -> untypable bad ->
  exists d', handle_client wr con m texts grabs d = Ok d' /\
    only_sent d d' (flat_map (paused (i_timeout m)) evss ++ [VReply con false]).
Proof.
  intros wr con m texts grabs d cps evss bad rs Ht Hc Hto Hs H Hb Hu. destruct (message_text _ _ Hc) as [Hsz [rest [E1 E2]]].
  unfold handle_client. rewrite Hsz, E1, E2, Ht. cbv zeta. replace (1000000 <? i_timeout m) with false by (symmetry; apply N.ltb_ge; lia).
  rewrite flat_map_app. cbn [flat_map]. pose proof (text_fuel cps Hs) as L.
  match goal with |- context [input (S ?n)] => replace (S n) with (length cps + S (n - length cps))%nat by (rewrite app_length; lia) end.
  rewrite (input_types (i_timeout m) cps evss _ _ d Hs H), input_step, char_bad by auto. cbv iota beta zeta. cbn [bind].
  eexists. split; [reflexivity|].
  unfold only_sent, vemit. rewrite set_out_out. cbn [d_out set_d_out]. f_equal. rewrite rev_app_distr. reflexivity.
Qed.
(* All keys are let go of again, whatever was pressed before, and a key is pressed only
   while no other is, except under shift. *)
Theorem C54_released : forall cp evs c b, char_typed cp evs -> vafter c evs b = true -> b = true.
Proof.
  assert (PR : forall l c b, vafter c (flat_map press_release l) b = true -> b = true).
  { induction l as [|x l IH]; intros c b H; [exact H|]. cbn [flat_map] in H. unfold vafter in H. rewrite fold_left_app in H.
    apply IH in H. cbn in H. destruct (x =? c); [discriminate|exact H]. }
  intros cp evs c b H X. destruct H as [? code _|? code _| | | |? idx _].
  - apply (PR [code] c b). exact X.
  - unfold vafter in X. cbn [fold_left] in X. rewrite fold_left_app in X. unfold press_release in X. cbn [fold_left] in X.
    destruct (42 =? c), (code =? c); try discriminate X; exact X.
  - apply (PR [57] c b). exact X.
  - apply (PR [28] c b). exact X.
  - apply (PR [15] c b). exact X.
  - exact (PR _ c b X).
Qed.
(* a character is typed in one way only *)
Theorem C54_unique : forall cp evs evs', char_typed cp evs -> char_typed cp evs' -> evs = evs'.
Proof.
  intros cp evs evs' H H'.
  assert (S : scalar cp -> evs = evs').
  { intros Hs. pose proof (char_ok cp evs (d_init []) Hs H) as E. rewrite (char_ok cp evs' (d_init []) Hs H') in E.
    injection E as E. apply app_inv_tail in E. rewrite <- (rev_involutive evs), <- (rev_involutive evs'). now rewrite E. }
  apply S. clear - H. assert (Z : forallb (fun r => fst r + snd r <? 1114112) unicode_runs = true) by (vm_compute; reflexivity).
  split; destruct H as [c code U|c code U| | | |c idx U]; try (apply us_low in U; lia); try lia.
  - apply table_high in U. lia.
  - destruct U as (b & f & n & a & E & U & _). rewrite forallb_forall in Z. specialize (Z (f, n)). rewrite E in Z at 1.
    specialize (Z ltac:(apply in_app_iff; right; now left)). apply N.ltb_lt in Z. cbn [fst snd] in Z. lia.
Qed.

Example C54_example : exists evss,
  Forall2 char_typed [72; 105; 32; 233] evss /\ Forall scalar [72; 105; 32; 233]
  /\ flat_map (paused 0) evss = [VKey 42 true; VKey 35 true; VKey 35 false; VKey 42 false; VKey 23 true; VKey 23 false; VKey 57 true; VKey 57 false;
       VKey 223 true; VKey 223 false; VKey 11 true; VKey 11 false; VKey 3 true; VKey 3 false; VKey 45 true; VKey 45 false]
  /\ forall wr d, exists d', handle_client wr 7 (mkMsg IInput 0 (flat_map utf8 [72; 105; 32; 233] ++ repeat 0 4091) 5) [] (fun _ => true) d = Ok d'
       /\ only_sent d d' (flat_map (paused 0) evss ++ [VReply 7 true]).
Proof.
  pose (evss := [VKey 42 true :: press_release 35 ++ [VKey 42 false]; press_release 23; press_release 57; flat_map press_release (compose_keys 105)]).
  assert (H1 : Forall2 char_typed [72; 105; 32; 233] evss).
  { constructor; [apply ct_shifted; apply us_find_ok; vm_compute; reflexivity|].
    constructor; [apply ct_key; apply us_find_ok; vm_compute; reflexivity|].
    constructor; [apply ct_blank|]. constructor; [|constructor]. apply ct_compose. apply table_index. vm_compute. reflexivity. }
  assert (H2 : Forall scalar [72; 105; 32; 233]) by (repeat (constructor; [split; reflexivity|]); constructor).
  exists evss. split; [exact H1|]. split; [exact H2|]. split; [vm_compute; reflexivity|].
  intros wr d. apply (C54_types wr 7 (mkMsg IInput 0 _ 5) [] (fun _ => true) d [72; 105; 32; 233] evss); auto; cbn [i_timeout i_type]; try lia.
  exists (repeat 0 4091). split; [reflexivity|]. split; [vm_compute; reflexivity|]. split; [vm_compute; reflexivity|]. split; [vm_compute; reflexivity|].
  intros X. vm_compute in X. repeat (destruct X as [X|X]; [discriminate|]). exact X.
Qed.
(* a text that ends inside a character aborts the daemon *)
Theorem C54_truncated_refuted : exists m, carries m (bs "ok" ++ [195]) /\ i_type m = IInput
  /\ forall wr con texts grabs d, handle_client wr con m texts grabs d = Crash CUtf8.
Proof.
  exists (mkMsg IInput 0 (bs "ok" ++ [195] ++ repeat 0 4093) 3). split.
  - exists (repeat 0 4093). split; [reflexivity|]. split; [vm_compute; reflexivity|]. split; [vm_compute; reflexivity|]. split; [vm_compute; reflexivity|].
    intros X. vm_compute in X. repeat (destruct X as [X|X]; [discriminate|]). exact X.
  - split; [reflexivity|]. intros. vm_compute. reflexivity.
Qed.

(* ---- C55 ------------------------------------------------------------------------------------ *)
(* the events a macro makes, as the virtual keyboard gets them *)
Lemma play_rel o : forall d, exists evs, play o d = set_d_ks (d_ks (play o d)) (set_d_out (evs ++ d_out d) d).
Proof.
  induction o as [|e o IH]; intros d; cbn [play].
  - exists []. cbn [app]. now destruct d.
  - destruct e as [c s| | |us]; try apply IH.
    + destruct (IH (dsend_key c s d)) as [evs E]. rewrite E. cbn [d_ks set_d_ks].
      assert (X : exists e1, d_out (dsend_key c s d) = e1 ++ d_out d /\
        forall ks out, set_d_ks ks (set_d_out out (dsend_key c s d)) = set_d_ks ks (set_d_out out d)).
      { unfold dsend_key, vemit. repeat match goal with |- context [if ?b then _ else _] => destruct b end; cbn [d_out set_d_out set_d_ks];
          (exists [] + eexists [_]); split; reflexivity. }
      destruct X as [e1 [X1 X2]]. exists (evs ++ e1). rewrite X2, X1, app_assoc. reflexivity.
    + destruct (IH (vemit (VSleep us) d)) as [evs E]. rewrite E. exists (evs ++ [VSleep us]). rewrite <- app_assoc. reflexivity.
Qed.
Lemma send_ks c s d x : d_ks (dsend_key c s d) x = if c mod 256 =? x then s else d_ks d x.
Proof.
  assert (X : d_ks (dsend_key c s d) = fupd (d_ks d) (c mod 256) s)
    by (unfold dsend_key, vemit; repeat match goal with |- context [if ?b then _ else _] => destruct b end; reflexivity).
  rewrite X. unfold fupd. rewrite N.eqb_sym. reflexivity.
Qed.
Definition byte_events (o : list oev) : Prop := Forall (fun e => match e with OKey c _ => c < 256 | _ => True end) o.
Lemma play_after o : byte_events o -> forall d x, d_ks (play o d) x = after x o (d_ks d x).
Proof.
  unfold after. induction 1 as [|e o He Ho IH]; intros d x; cbn [play fold_left]; [reflexivity|].
  destruct e as [c s| | |us]; cbv beta iota; rewrite ?IH; auto. rewrite send_ks, N.mod_small by auto. reflexivity.
Qed.
Lemma keyseq_bytes t d : byte_events (mexec_keyseq t d).
Proof.
  assert (M : forall mods p, byte_events (map (fun mk => OKey (snd mk) p) (filter (fun mk => hasmod (fst mk) mods) modifiers))).
  { intros mods p. apply Forall_forall. intros e He. apply in_map_iff in He as [x [<- Hx]]. apply filter_In in Hx as [Hx _].
    assert (B : forallb (fun x => snd x <? 256) modifiers = true) by (vm_compute; reflexivity). rewrite forallb_forall in B. apply N.ltb_lt. auto. }
  unfold mexec_keyseq. cbv zeta. apply Forall_app. split; [apply M|]. apply Forall_app. split; [destruct (_ && _); repeat constructor|].
  apply Forall_app. split; [|apply M]. repeat constructor; apply N.mod_lt; lia.
Qed.
Lemma unicode_bytes i : byte_events (flat_map (fun c => [OKey c true; OKey c false]) (unicode_get_sequence i)).
Proof.
  assert (B : forall n, nth n b36_keys 0 < 256).
  { intros n. assert (X : forallb (fun x => x <? 256) b36_keys = true) by (vm_compute; reflexivity). rewrite forallb_forall in X.
    destruct (nth_in_or_default n b36_keys 0) as [H|E]; [apply N.ltb_lt; auto|rewrite E; lia]. }
  unfold unicode_get_sequence, byte_events. cbn [flat_map app]. repeat (constructor; [solve [apply B|reflexivity]|]). constructor.
Qed.
Lemma mexec_bytes t : forall m held, byte_events (mexec t held m).
Proof.
  induction m as [|e m IH]; intros held; cbn [mexec]; [constructor|].
  apply Forall_app. split; [|apply Forall_app; split; [destruct (negb _); repeat constructor|apply IH]].
  destruct (m_type e).
  - apply keyseq_bytes.
  - repeat constructor. apply N.mod_lt. lia.
  - destruct held as [es|]; [|constructor]. apply Forall_forall. intros x Hx. apply in_map_iff in Hx as [y [<- _]]. apply N.mod_lt. lia.
  - apply unicode_bytes.
  - repeat constructor.
Qed.
Lemma send_shown c s d : c < 256 -> d_out (dsend_key c s d) = rev (shown (OKey c s)) ++ d_out d.
Proof.
  intros Hc. unfold dsend_key, vemit. rewrite N.mod_small by auto. cbv zeta. cbn [shown wheel find fst snd].
  rewrite !(N.eqb_sym c). change K_SCROLL_DOWN with 148. change K_SCROLL_UP with 149. change K_SCROLL_LEFT with 202. change K_SCROLL_RIGHT with 203.
  destruct (N.eqb_spec 148 c); [destruct s; reflexivity|]. destruct (N.eqb_spec 149 c); [destruct s; reflexivity|].
  destruct (N.eqb_spec 203 c) as [E|_]; [subst c; destruct s; reflexivity|]. destruct (N.eqb_spec 202 c); [destruct s; reflexivity|]. reflexivity.
Qed.
Lemma play_shown o : byte_events o -> forall d, d_out (play o d) = rev (flat_map shown o) ++ d_out d.
Proof.
  induction 1 as [|e o He Ho IH]; intros d; cbn [play flat_map]; [reflexivity|]. rewrite rev_app_distr, <- app_assoc.
  destruct e as [c s| | |us]; rewrite IH; try reflexivity. now rewrite send_shown.
Qed.
Lemma nil_or_last {A} (l : list A) : l = [] \/ exists r x, l = r ++ [x].
Proof. destruct l as [|a l] using rev_ind; eauto. Qed.
Lemma chop_app text : forall n rest, last text 0 <> 10 -> chop (length text + n) (text ++ repeat 10 n ++ 0 :: rest) =
  text ++ 0 :: repeat 0 n ++ rest.
Proof.
  induction n as [|n IH]; intros rest Hl.
  - rewrite Nat.add_0_r. cbn [repeat app]. destruct (@nil_or_last N text) as [->|[t' [x ->]]]; [reflexivity|].
    rewrite last_last in Hl. rewrite app_length. cbn [length]. rewrite Nat.add_1_r. cbn [chop].
    rewrite <- !app_assoc. cbn [app]. rewrite app_nth2, Nat.sub_diag by lia. cbn [nth]. destruct (N.eqb_spec x 10); [contradiction|reflexivity].
  - rewrite Nat.add_succ_r. cbn [chop].
    assert (E : text ++ repeat 10 (S n) ++ 0 :: rest = (text ++ repeat 10 n) ++ 10 :: 0 :: rest).
    { rewrite <- app_assoc. f_equal. change (10 :: 0 :: rest) with ([10] ++ 0 :: rest). rewrite app_assoc. f_equal.
      clear. induction n; cbn [repeat app]; [reflexivity|]. f_equal. exact IHn. }
    rewrite E. assert (L : (length text + n)%nat = length (text ++ repeat 10 n)) by (rewrite app_length, repeat_length; reflexivity).
    rewrite L, app_nth2, Nat.sub_diag by lia. cbn [nth N.eqb Pos.eqb]. rewrite upd_app, <- L, <- app_assoc, IH by auto. f_equal. f_equal.
    clear. induction n; cbn [repeat app]; [reflexivity|]. f_equal. exact IHn.
Qed.
Lemma macro_message wr con m texts grabs d text n : i_type m = IMacro -> carries m (text ++ repeat 10 n) -> last text 0 <> 10 ->
  i_timeout m <= 1000000 ->
  handle_client wr con m texts grabs d =
    (r <- macro_parse text ;;
     match r with
     | None => Ok (vemit (VReply con false) d)
     | Some mac => Ok (vemit (VReply con true) (play (macro_execute mac (Z.of_N (i_timeout m))) d))
     end).
Proof.
  intros Ht Hc Hl Hto. pose proof Hc as (r0 & _ & Es & _ & _ & Hz). destruct (message_text _ _ Hc) as [Hsz [rest [E1 E2]]].
  unfold handle_client. rewrite Hsz, E1, Ht. cbv zeta. replace (1000000 <? i_timeout m) with false by (symmetry; apply N.ltb_ge; lia).
  rewrite Es, Nat2N.id, app_length, repeat_length, <- app_assoc, chop_app, cstr_app by (auto; intros X; apply Hz; apply in_app_iff; auto).
  reflexivity.
Qed.
(* `keyd do`: newlines at the end are dropped; a macro that is refused sends nothing ... *)
Theorem C55_refused : forall wr con m texts grabs d text n, i_type m = IMacro -> carries m (text ++ repeat 10 n) -> last text 0 <> 10 ->
  i_timeout m <= 1000000 -> macro_parse text = Ok None ->
  exists d', handle_client wr con m texts grabs d = Ok d' /\ only_sent d d' [VReply con false].
Proof.
  intros wr con m texts grabs d text n Ht Hc Hl Hto Hp. rewrite (macro_message _ _ _ _ _ _ _ _ Ht Hc Hl Hto), Hp. cbn [bind].
  eexists. split; [reflexivity|]. reflexivity.
Qed.
(* ... any other is a sequence of elements, and the keys sent are those the elements say,
   in their order (exactly their events if no pause between them was asked for) ... *)
Theorem C55_says : forall wr con m texts grabs d text n mac, i_type m = IMacro -> carries m (text ++ repeat 10 n) -> last text 0 <> 10 ->
  i_timeout m <= 1000000 -> macro_parse text = Ok (Some mac) ->
  exists es d', mac = flat_map encode es /\ Forall in_range es /\ handle_client wr con m texts grabs d = Ok d' /\
    (Forall plain_groups es -> exists o, d_out d' = VReply con true :: rev (flat_map shown o) ++ d_out d
       /\ key_events o = key_events (flat_map says es) /\ (i_timeout m = 0 -> o = flat_map says es)).
Proof.
  intros wr con m texts grabs d text n mac Ht Hc Hl Hto Hp. destruct (macro_parse_encoded _ _ Hp) as [es [R ->]].
  rewrite (macro_message _ _ _ _ _ _ _ _ Ht Hc Hl Hto), Hp. cbn [bind]. eexists es, _. split; [reflexivity|]. split; [exact R|].
  split; [reflexivity|]. intros P. exists (macro_execute (flat_map encode es) (Z.of_N (i_timeout m))). split; [|split].
  - unfold vemit. cbn [d_out set_d_out]. rewrite play_shown; [reflexivity|]. apply mexec_bytes.
  - unfold macro_execute. rewrite timeout_only_pauses. change (key_events (macro_execute (flat_map encode es) 0) = key_events (flat_map says es)). now rewrite macro_says.
  - intros ->. now rewrite macro_says.
Qed.
(* ... and whatever the macro, no key is pressed afterwards that was not before, and nothing
   but the output and the pressed keys changes. *)
Theorem C55_released : forall wr con m texts grabs d d', i_type m = IMacro -> handle_client wr con m texts grabs d = Ok d' ->
  (forall c, d_ks d' c = true -> d_ks d c = true) /\ exists evs, d' = set_d_ks (d_ks d') (set_d_out (evs ++ d_out d) d).
Proof.
  intros wr con m texts grabs d d' Ht H. unfold handle_client in H. rewrite Ht in H.
  destruct (4096 <=? i_sz m); [apply Ok_inj in H; subst d'; split; [auto|exists [VReply con false]; now destruct d]|]. cbv zeta in H.
  destruct (1000000 <? i_timeout m); [apply Ok_inj in H; subst d'; split; [auto|exists [VReply con false]; now destruct d]|].
  destruct (macro_parse _) as [[mac|]| | |] eqn:Ep; cbn [bind] in H; try discriminate H; apply Ok_inj in H; subst d'.
  - split.
    + intros c X. change (d_ks (play (macro_execute mac (Z.of_N (i_timeout m))) d) c = true) in X.
      rewrite play_after in X by apply mexec_bytes. apply parse_lets_go in Ep. now apply Ep in X.
    + destruct (play_rel (macro_execute mac (Z.of_N (i_timeout m))) d) as [evs E]. exists (VReply con true :: evs).
      unfold vemit. cbn [d_ks set_d_out]. rewrite E at 1 2. reflexivity.
  - split; [auto|]. exists [VReply con false]. now destruct d.
Qed.
Example C55_example :
  let m := mkMsg IMacro 0 (bs "C-x 20ms hi" ++ [10; 10] ++ repeat 0 4083) 13 in
  carries m (bs "C-x 20ms hi" ++ repeat 10 2) /\ macro_parse (bs "C-x 20ms hi") <> Ok None
  /\ forall wr d, exists d', handle_client wr 7 m [] (fun _ => true) d = Ok d'
     /\ d_out d' = VReply 7 true :: rev [VKey 29 true; VKey 45 true; VKey 45 false; VKey 29 false; VSleep 20000;
                       VKey 35 true; VKey 35 false; VKey 23 true; VKey 23 false] ++ d_out d.
Proof.
  cbv zeta. split; [|split].
  - exists (repeat 0 4083). split; [vm_compute; reflexivity|]. split; [vm_compute; reflexivity|]. split; [vm_compute; reflexivity|].
    split; [vm_compute; reflexivity|]. intros X. vm_compute in X. repeat (destruct X as [X|X]; [discriminate|]). exact X.
  - vm_compute. discriminate.
  - intros wr d. eexists. split; [vm_compute; reflexivity|]. vm_compute. reflexivity.
Qed.
Definition C54_all := (C54_types, C54_stops, C54_released, C54_unique, C54_example, C54_truncated_refuted, C55_refused, C55_says, C55_released, C55_example).
Print Assumptions C54_all.
