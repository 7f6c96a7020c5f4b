(* Proofs about the compose file. *)
From Coq Require Import String.
From Verif Require Import Base Lib Types Keys KeyTable Str MacroExec MacroParse UnicodeTable SpecNotation NotationProofs MacroProofs
  Compose SpecCompose.
Local Open Scope N_scope.
Local Open Scope list_scope.
Local Notation length := List.length.

(* ---- the file and its rules ------------------------------------------------------------ *)
Definition digit (n : N) : N := nth (N.to_nat n) b36_chars 0.
Definition seq_of (n : N) : list sym := [SCancel; SChar (digit (n / 1296 mod 36)); SChar (digit (n / 36 mod 36)); SChar (digit (n mod 36))].
Fixpoint numbered (n : N) (codes : list N) : list (list sym * str) :=
  match codes with
  | [] => []
  | cp :: r => (seq_of n, utf8 cp) :: numbered (n + 1) r
  end.
Lemma digit_good n : n < 36 -> alphanumeric (digit n) = true /\ digit n <> 62 /\ digit n <> 10.
Proof.
  intros H. unfold digit.
  assert (X : forallb (fun c => alphanumeric c && negb (c =? 62) && negb (c =? 10)) b36_chars = true) by (vm_compute; reflexivity).
  rewrite forallb_forall in X. specialize (X (nth (N.to_nat n) b36_chars 0)).
  assert (I : In (nth (N.to_nat n) b36_chars 0) b36_chars) by (apply nth_In; change (length b36_chars) with 36%nat; lia).
  specialize (X I). rewrite !andb_true_iff, !negb_true_iff, !N.eqb_neq in X. tauto.
Qed.
Lemma digit_inj i j : i < 36 -> j < 36 -> digit i = digit j -> i = j.
Proof.
  intros Hi Hj E. assert (D : NoDup b36_chars) by (unfold b36_chars; cbn; repeat constructor; cbn; intuition discriminate).
  rewrite (NoDup_nth b36_chars 0) in D. specialize (D (N.to_nat i) (N.to_nat j)). change (length b36_chars) with 36%nat in D.
  assert (N.to_nat i = N.to_nat j) by (apply D; auto; lia). lia.
Qed.
Lemma seq_of_inj i j : i < 46656 -> j < 46656 -> seq_of i = seq_of j -> i = j.
Proof.
  intros Hi Hj E. unfold seq_of in E. injection E as E1 E2 E3.
  apply digit_inj in E1; try (apply N.mod_lt; lia). apply digit_inj in E2; try (apply N.mod_lt; lia). apply digit_inj in E3; try (apply N.mod_lt; lia).
  rewrite !(N.mod_small (_ / 1296)) in E1 by (apply N.div_lt_upper_bound; lia).
  pose proof (N.div_mod i 36 ltac:(lia)). pose proof (N.div_mod j 36 ltac:(lia)).
  assert (A : forall n, n / 1296 = n / 36 / 36) by (intros n; rewrite N.div_div by lia; reflexivity).
  rewrite !A in E1. pose proof (N.div_mod (i / 36) 36 ltac:(lia)). pose proof (N.div_mod (j / 36) 36 ltac:(lia)). lia.
Qed.
Lemma utf8_high cp : 128 <= cp -> Forall (fun b => 128 <= b) (utf8 cp).
Proof.
  intros H. unfold utf8. destruct (N.ltb_spec cp 128); [lia|]. destruct (cp <? 2048); [|destruct (cp <? 65536)]; repeat constructor; lia.
Qed.
Lemma cut_at_app c a b : ~ In c a -> cut_at c (a ++ c :: b) = Some (a, b).
Proof.
  induction a as [|x a IH]; intros H; cbn [app cut_at].
  - now rewrite N.eqb_refl.
  - destruct (N.eqb_spec x c) as [->|]; [elim H; now left|]. rewrite IH; auto. intros X. apply H. now right.
Qed.
Definition body (n cp : N) : str :=
  bs "<Cancel> " ++ [60; digit (n / 1296 mod 36); 62; 32; 60; digit (n / 36 mod 36); 62; 32; 60; digit (n mod 36); 62] ++ bs " : """ ++ utf8 cp ++ [34].
Lemma line_body n cp : compose_line n cp = body n cp ++ [10].
Proof.
  unfold compose_line, body, base36, digit. cbn [map join]. change (36 * 36) with 1296. rewrite <- !app_assoc. reflexivity.
Qed.
Lemma rs_blank f r acc : read_syms (S f) (32 :: r) acc = read_syms f r acc. Proof. reflexivity. Qed.
Lemma rs_colon f r acc : read_syms (S f) (58 :: r) acc = Some (acc, r). Proof. reflexivity. Qed.
Lemma rs_sym f nm y r acc : ~ In 62 nm -> sym_named nm = Some y -> read_syms (S f) (60 :: nm ++ 62 :: r) acc = read_syms f r (acc ++ [y]).
Proof. intros H E. cbn [read_syms]. rewrite cut_at_app by auto. now rewrite E. Qed.
Lemma named_char a : alphanumeric a = true -> sym_named [a] = Some (SChar a).
Proof.
  intros A. unfold sym_named. replace (str_eqb [a] (bs "Cancel")) with false; [now rewrite A|].
  change (bs "Cancel") with (67 :: bs "ancel"). cbn [str_eqb]. destruct (a =? 67); reflexivity.
Qed.
Lemma read_parts f a b c rest : alphanumeric a = true -> alphanumeric b = true -> alphanumeric c = true ->
  a <> 62 -> b <> 62 -> c <> 62 ->
  read_syms (S (S (S (S (S (S (S (S (S f)))))))))
     (60 :: bs "Cancel" ++ 62 :: 32 :: 60 :: [a] ++ 62 :: 32 :: 60 :: [b] ++ 62 :: 32 :: 60 :: [c] ++ 62 :: 32 :: 58 :: rest) []
  = Some ([SCancel; SChar a; SChar b; SChar c], rest).
Proof.
  intros A B C A2 B2 C2.
  rewrite (rs_sym _ _ SCancel); [|cbn; intuition discriminate|reflexivity]. rewrite rs_blank.
  rewrite (rs_sym _ [a] (SChar a)); [|cbn; intuition congruence|now apply named_char]. rewrite rs_blank.
  rewrite (rs_sym _ [b] (SChar b)); [|cbn; intuition congruence|now apply named_char]. rewrite rs_blank.
  rewrite (rs_sym _ [c] (SChar c)); [|cbn; intuition congruence|now apply named_char]. rewrite rs_blank. apply rs_colon.
Qed.
Lemma body_parts n cp : body n cp = 60 :: bs "Cancel" ++ 62 :: 32 :: 60 :: [digit (n / 1296 mod 36)] ++ 62 :: 32 :: 60 :: [digit (n / 36 mod 36)]
   ++ 62 :: 32 :: 60 :: [digit (n mod 36)] ++ 62 :: 32 :: 58 :: 32 :: 34 :: utf8 cp ++ [34].
Proof. reflexivity. Qed.
Lemma read_body n cp : 128 <= cp -> read_rule (body n cp) = Some (seq_of n, utf8 cp).
Proof.
  intros H. unfold read_rule, seq_of. rewrite body_parts.
  destruct (digit_good (n / 1296 mod 36)) as [A1 [A2 _]]; [apply N.mod_lt; lia|].
  destruct (digit_good (n / 36 mod 36)) as [B1 [B2 _]]; [apply N.mod_lt; lia|].
  destruct (digit_good (n mod 36)) as [C1 [C2 _]]; [apply N.mod_lt; lia|].
  generalize dependent (digit (n / 1296 mod 36)). generalize dependent (digit (n / 36 mod 36)). generalize dependent (digit (n mod 36)).
  intros c C1 C2 b B1 B2 a A1 A2.
  assert (U : ~ In 34 (utf8 cp)).
  { intros X. pose proof (utf8_high cp H) as F. rewrite Forall_forall in F. specialize (F _ X). lia. }
  set (line := 60 :: _). assert (L : exists f, length line = S (S (S (S (S (S (S (S f)))))))) by (eexists; reflexivity).
  destruct L as [f ->]. unfold line. rewrite read_parts by auto. now rewrite cut_at_app.
Qed.
Lemma body_line n cp : 128 <= cp -> ~ In 10 (body n cp).
Proof.
  intros H. rewrite body_parts.
  destruct (digit_good (n / 1296 mod 36)) as [_ [_ A]]; [apply N.mod_lt; lia|].
  destruct (digit_good (n / 36 mod 36)) as [_ [_ B]]; [apply N.mod_lt; lia|].
  destruct (digit_good (n mod 36)) as [_ [_ C]]; [apply N.mod_lt; lia|].
  generalize dependent (digit (n / 1296 mod 36)). generalize dependent (digit (n / 36 mod 36)). generalize dependent (digit (n mod 36)).
  intros c C b B a A X.
  assert (U : ~ In 10 (utf8 cp ++ [34])).
  { rewrite in_app_iff. intros [Y|[Y|[]]]; [|discriminate]. pose proof (utf8_high cp H) as F. rewrite Forall_forall in F. specialize (F _ Y). lia. }
  generalize dependent (utf8 cp ++ [34]). intros u X U. change (bs "Cancel") with [67; 97; 110; 99; 101; 108] in X. cbn [app In] in X.
  repeat (destruct X as [X|X]; [first [discriminate|congruence]|]). now apply U.
Qed.
Lemma rules_numbered codes : Forall (fun cp => 128 <= cp) codes -> forall n fuel, (length codes < fuel)%nat ->
  rules_fuel fuel (compose_from n codes) = numbered n codes.
Proof.
  induction 1 as [|cp codes H F IH]; intros n fuel Hf; (destruct fuel as [|fuel]; [lia|]); cbn [compose_from numbered length] in *.
  - reflexivity.
  - rewrite line_body, <- app_assoc. cbn [app rules_fuel]. rewrite cut_at_app by now apply body_line. rewrite read_body by auto.
    cbn [app]. rewrite IH by lia. reflexivity.
Qed.
Lemma file_long codes : forall n, (length codes <= length (compose_from n codes))%nat.
Proof.
  induction codes as [|cp codes IH]; intros n; cbn [compose_from length]; [lia|]. rewrite app_length, line_body, app_length.
  cbn [length]. specialize (IH (n + 1)). lia.
Qed.
Lemma file_rules codes : Forall (fun cp => 128 <= cp) codes -> rules (compose_file codes) = numbered 0 codes.
Proof. intros F. unfold rules, compose_file. apply rules_numbered; auto. pose proof (file_long codes 0). lia. Qed.
Lemma numbered_in codes : forall n r, In r (numbered n codes) ->
  exists i cp, i < N.of_nat (length codes) /\ nth_error codes (N.to_nat i) = Some cp /\ r = (seq_of (n + i), utf8 cp).
Proof.
  induction codes as [|cp codes IH]; intros n r H; cbn [numbered In length] in *; [contradiction|]. destruct H as [<-|H].
  - exists 0, cp. split; [lia|]. split; [reflexivity|]. now rewrite N.add_0_r.
  - apply IH in H as (i & cp' & H1 & H2 & ->). exists (i + 1), cp'. split; [lia|]. split.
    + replace (N.to_nat (i + 1)) with (S (N.to_nat i)) by lia. exact H2.
    + now replace (n + (i + 1)) with (n + 1 + i) by lia.
Qed.
Lemma numbered_at codes : forall n i cp, nth_error codes (N.to_nat i) = Some cp -> In (seq_of (n + i), utf8 cp) (numbered n codes).
Proof.
  induction codes as [|c codes IH]; intros n i cp H; [now destruct (N.to_nat i)|]. cbn [numbered In].
  destruct (N.eq_dec i 0) as [->|Hi].
  - left. cbn in H. injection H as ->. now rewrite N.add_0_r.
  - right. replace (n + i) with (n + 1 + (i - 1)) by lia. apply IH. replace (N.to_nat i) with (S (N.to_nat (i - 1))) in H by lia. exact H.
Qed.
Lemma lookup_at codes : forall cp n x, table_lookup codes cp n = Some x ->
  n <= x /\ x - n < N.of_nat (length codes) /\ nth_error codes (N.to_nat (x - n)) = Some cp.
Proof.
  induction codes as [|c codes IH]; intros cp n x H; cbn [table_lookup length] in *; [discriminate|].
  destruct (N.eqb_spec c cp) as [->|].
  - injection H as <-. rewrite N.sub_diag. repeat split; lia.
  - apply IH in H as (A & B & C). split; [lia|]. split; [lia|]. replace (N.to_nat (x - n)) with (S (N.to_nat (x - (n + 1)))) by lia. exact C.
Qed.

(* ---- composing -------------------------------------------------------------------------- *)
Lemma sym_eqb_ok a b : sym_eqb a b = true <-> a = b.
Proof.
  destruct a, b; cbn [sym_eqb]; try (split; [discriminate|discriminate]); [tauto|]. rewrite N.eqb_eq. split; [now intros ->|now intros [= ->]].
Qed.
Lemma syms_eqb_ok a : forall b, syms_eqb a b = true <-> a = b.
Proof.
  induction a as [|x a IH]; intros [|y b]; cbn [syms_eqb]; try (split; discriminate); [tauto|].
  rewrite andb_true_iff, sym_eqb_ok, IH. split; [now intros [-> ->]|intros E; injection E; auto].
Qed.
Lemma sym_eqb_refl a : sym_eqb a a = true. Proof. now apply sym_eqb_ok. Qed.
Lemma find_only {A} (p : A -> bool) l r : In r l -> p r = true -> (forall r', In r' l -> p r' = true -> r' = r) -> find p (rev l) = Some r.
Proof.
  intros I P U. destruct (find p (rev l)) as [r'|] eqn:E.
  - apply find_some in E as [E1 E2]. f_equal. apply U; auto. now apply in_rev.
  - apply find_none with (x := r) in E; [congruence|]. now apply -> in_rev.
Qed.
Lemma find_nothing {A} (p : A -> bool) l : (forall r, In r l -> p r = false) -> find p (rev l) = None.
Proof.
  intros U. destruct (find p (rev l)) as [r'|] eqn:E; auto. apply find_some in E as [E1 E2]. rewrite U in E2; [discriminate|]. now apply in_rev.
Qed.
Lemma seq_cons n : exists a b c, seq_of n = [SCancel; SChar a; SChar b; SChar c]. Proof. do 3 eexists. reflexivity. Qed.
Lemma short_none codes w : length w <> 4%nat -> find (fun r => syms_eqb (fst r) w) (rev (numbered 0 codes)) = None.
Proof.
  intros H. apply find_nothing. intros r I. apply numbered_in in I as (i & cp & _ & _ & ->). cbn [fst].
  destruct (syms_eqb _ w) eqn:E; auto. apply syms_eqb_ok in E. subst w. elim H. reflexivity.
Qed.
Lemma composed codes i cp : N.of_nat (length codes) <= 46656 -> nth_error codes (N.to_nat i) = Some cp -> i < N.of_nat (length codes) ->
  let rs := numbered 0 codes in let d1 := SChar (digit (i / 1296 mod 36)) in let d2 := SChar (digit (i / 36 mod 36)) in let d3 := SChar (digit (i mod 36)) in
  compose rs [] SCancel = ([SCancel], []) /\ compose rs [SCancel] d1 = ([SCancel; d1], [])
  /\ compose rs [SCancel; d1] d2 = ([SCancel; d1; d2], []) /\ compose rs [SCancel; d1; d2] d3 = ([], utf8 cp).
Proof.
  intros Sm H Hi rs d1 d2 d3. pose proof (numbered_at codes 0 i cp H) as I. rewrite N.add_0_l in I. fold rs in I.
  assert (Lead : forall w, leads w (seq_of i) = true -> existsb (fun r => leads w (fst r)) rs = true).
  { intros w L. apply existsb_exists. eexists. split; [exact I|exact L]. }
  assert (Begun : forall p x, length p <> 3%nat -> leads (p ++ [x]) (seq_of i) = true -> compose rs p x = (p ++ [x], [])).
  { intros p x Hp Le. unfold compose. rewrite (short_none codes) by (rewrite app_length; cbn [length]; lia). now rewrite Lead. }
  split; [now apply Begun|]. split; [|split].
  1, 2: apply Begun; [discriminate|]; cbn [app leads seq_of]; unfold d1, d2; rewrite ?sym_eqb_refl; reflexivity.
  unfold compose. cbn [app]. rewrite (find_only _ rs (seq_of i, utf8 cp)); auto.
  - now apply syms_eqb_ok.
  - intros r R E. apply syms_eqb_ok in E. apply numbered_in in R as (j & cp' & J1 & J2 & ->). cbn [fst] in E.
    rewrite N.add_0_l in *. change [SCancel; d1; d2; d3] with (seq_of i) in E. apply seq_of_inj in E; [|lia|lia]. subst j. rewrite H in J2. now injection J2 as ->.
Qed.
Lemma itself codes c : compose (numbered 0 codes) [] (SChar c) = ([], [c]).
Proof.
  unfold compose. cbn [app]. rewrite (short_none codes) by (cbn [length]; lia).
  replace (existsb _ (numbered 0 codes)) with false; [reflexivity|]. symmetry. destruct (existsb _ (numbered 0 codes)) eqn:E; auto.
  apply existsb_exists in E as (r & R & L). apply numbered_in in R as (j & cp' & _ & _ & ->). discriminate.
Qed.

(* ---- keys ---------------------------------------------------------------------------------- *)
Definition code_sym (code : N) (sh : bool) (s : sym) : bool :=
  negb (code =? 42) && match key_sym code sh with Some y => sym_eqb y s | None => false end.
Lemma digit_key n : n < 36 -> code_sym (nth (N.to_nat n) alnum 0) false (SChar (digit n)) = true.
Proof.
  intros H. assert (X : forallb (fun i => code_sym (nth i alnum 0) false (SChar (nth i b36_chars 0))) (seq 0 36) = true) by (vm_compute; reflexivity).
  rewrite forallb_forall in X. apply X. apply in_seq. lia.
Qed.
Lemma us_key_sym c code sh : us_key c code sh -> code_sym code sh (SChar c) = true.
Proof.
  intros [f [p [s [i [H1 [H2 [-> <-]]]]]]].
  assert (Y : forallb (fun '(f, p, s) => forallb (fun i => code_sym (f + N.of_nat i) false (SChar (nth i p 0))
      && code_sym (f + N.of_nat i) true (SChar (nth i s 0))) (seq 0 (length p))) us_rows = true) by (vm_compute; reflexivity).
  rewrite forallb_forall in Y. specialize (Y _ H1). cbv beta iota in Y. rewrite forallb_forall in Y.
  specialize (Y i ltac:(apply in_seq; lia)). apply andb_true_iff in Y as [Y1 Y2]. destruct sh; auto.
Qed.
Lemma press_sym rs pending sh text code s : code_sym code sh s = true ->
  application rs [(code, true); (code, false)] (pending, sh, text)
  = let '(p, t) := compose rs pending s in (p, sh, text ++ t).
Proof.
  intros H. apply andb_true_iff in H as [H1 H2]. apply negb_true_iff in H1. destruct (key_sym code sh) as [y|] eqn:K; [|discriminate].
  apply sym_eqb_ok in H2. subst y. unfold application. cbn [fold_left app_key]. rewrite H1, K.
  destruct (compose rs pending s) as [p t]. cbn [app_key]. now rewrite H1.
Qed.
Lemma shows_nil rs : shows rs [] []. Proof. intros b. cbn. now rewrite app_nil_r. Qed.
Lemma shows_app rs a b s t : shows rs a s -> shows rs b t -> shows rs (a ++ b) (s ++ t).
Proof. intros A B x. unfold application. rewrite fold_left_app. fold (application rs a ([], false, x)). rewrite A. unfold shows, application in B. rewrite B. now rewrite app_assoc. Qed.
Definition hit (c : N) : list (N * bool) := [(c, true); (c, false)].
Lemma application_app rs a b x : application rs (a ++ b) x = application rs b (application rs a x).
Proof. unfold application. apply fold_left_app. Qed.
Lemma shows_composed codes i cp : N.of_nat (length codes) <= 46656 -> nth_error codes (N.to_nat i) = Some cp -> i < N.of_nat (length codes) ->
  shows (numbered 0 codes) (flat_map hit (compose_keys i)) (utf8 cp).
Proof.
  intros Sm H Hi before. destruct (composed codes i cp Sm H Hi) as (C1 & C2 & C3 & C4).
  unfold compose_keys. rewrite <- (N.mod_small (i / 1296) 36) by (apply N.div_lt_upper_bound; lia).
  pose proof (digit_key (i / 1296 mod 36) ltac:(apply N.mod_lt; lia)) as D1.
  pose proof (digit_key (i / 36 mod 36) ltac:(apply N.mod_lt; lia)) as D2.
  pose proof (digit_key (i mod 36) ltac:(apply N.mod_lt; lia)) as D3.
  generalize dependent (nth (N.to_nat (i / 1296 mod 36)) alnum 0). intros k1 D1.
  generalize dependent (nth (N.to_nat (i / 36 mod 36)) alnum 0). intros k2 D2.
  generalize dependent (nth (N.to_nat (i mod 36)) alnum 0). intros k3 D3.
  cbn [flat_map]. rewrite !application_app. unfold hit. rewrite (press_sym _ _ _ _ 223 SCancel) by reflexivity. rewrite C1.
  rewrite (press_sym _ _ _ _ k1 _ D1), C2. rewrite (press_sym _ _ _ _ k2 _ D2), C3. rewrite (press_sym _ _ _ _ k3 _ D3), C4.
  rewrite !app_nil_r. reflexivity.
Qed.
Lemma shows_key codes code c : code_sym code false (SChar c) = true -> shows (numbered 0 codes) (hit code) [c].
Proof. intros H before. unfold hit. rewrite (press_sym _ _ _ _ code _ H). now rewrite itself. Qed.
Lemma shows_shifted codes code c : code_sym code true (SChar c) = true ->
  shows (numbered 0 codes) ((42, true) :: hit code ++ [(42, false)]) [c].
Proof.
  intros H before. change ((42, true) :: hit code ++ [(42, false)]) with ([(42, true)] ++ hit code ++ [(42, false)]).
  rewrite !application_app. unfold hit. change (application (numbered 0 codes) [(42, true)] ([], false, before)) with ([] : list sym, true, before).
  rewrite (press_sym _ _ _ _ code _ H), itself. reflexivity.
Qed.

(* ---- the table of the release ----------------------------------------------------------------- *)
Lemma upfrom_length n : forall f, length (upfrom f n) = n.
Proof. induction n as [|n IH]; intros f; cbn [upfrom length]; auto. Qed.
Lemma upfrom_in n : forall f cp, In cp (upfrom f n) <-> f <= cp < f + N.of_nat n.
Proof.
  induction n as [|n IH]; intros f cp; cbn [upfrom In]; [lia|]. rewrite IH. lia.
Qed.
Lemma lookup_app a b cp : forall n, table_lookup (a ++ b) cp n =
  match table_lookup a cp n with Some x => Some x | None => table_lookup b cp (n + N.of_nat (length a)) end.
Proof.
  induction a as [|c a IH]; intros n; cbn [app table_lookup length]; [now rewrite N.add_0_r|]. destruct (c =? cp); auto.
  rewrite IH. destruct (table_lookup a cp (n + 1)); auto. f_equal. lia.
Qed.
Lemma lookup_upfrom k : forall f cp n, table_lookup (upfrom f k) cp n =
  if (f <=? cp) && (cp <? f + N.of_nat k) then Some (n + (cp - f)) else None.
Proof.
  induction k as [|k IH]; intros f cp n; cbn [upfrom table_lookup].
  - destruct (N.leb_spec f cp), (N.ltb_spec cp (f + N.of_nat 0)); try reflexivity. lia.
  - destruct (N.eqb_spec f cp) as [->|Hn].
    + destruct (N.leb_spec cp cp); [|lia]. destruct (N.ltb_spec cp (cp + N.of_nat (S k))); [|lia]. cbn [andb]. f_equal. lia.
    + rewrite IH. destruct (N.leb_spec f cp), (N.leb_spec (f + 1) cp), (N.ltb_spec cp (f + 1 + N.of_nat k)), (N.ltb_spec cp (f + N.of_nat (S k)));
        cbn [andb]; try lia; try reflexivity. f_equal. lia.
Qed.
Lemma lookup_runs runs : forall cp base, table_lookup (expand runs) cp base = runs_index runs cp base.
Proof.
  induction runs as [|[f k] runs IH]; intros cp base; [reflexivity|]. unfold expand. cbn [flat_map fst snd runs_index]. fold (expand runs).
  rewrite lookup_app, lookup_upfrom, upfrom_length, N2Nat.id. destruct ((f <=? cp) && (cp <? f + k)); auto.
Qed.
Lemma expand_length runs : N.of_nat (length (expand runs)) = total runs.
Proof.
  induction runs as [|[f k] runs IH]; [reflexivity|]. unfold expand. cbn [flat_map fst snd]. fold (expand runs). rewrite app_length, upfrom_length.
  change (total ((f, k) :: runs)) with (k + total runs). lia.
Qed.
Lemma shipped_small : N.of_nat (length shipped_codes) <= 46656.
Proof. unfold shipped_codes. rewrite expand_length. pose proof total_small. lia. Qed.
Lemma shipped_high : Forall (fun cp => 128 <= cp < 1114112) shipped_codes.
Proof.
  apply Forall_forall. intros cp H. apply in_flat_map in H as ([f k] & H1 & H2). apply upfrom_in in H2. cbn [fst snd] in *. rewrite N2Nat.id in H2.
  assert (X : forallb (fun r => (128 <=? fst r) && (fst r + snd r <=? 1114112)) unicode_runs = true) by (vm_compute; reflexivity).
  rewrite forallb_forall in X. specialize (X _ H1). rewrite andb_true_iff, !N.leb_le in X. cbn [fst snd] in X. lia.
Qed.
Lemma in_lookup codes cp : forall n, In cp codes -> exists i, table_lookup codes cp n = Some i.
Proof.
  induction codes as [|c codes IH]; intros n H; [contradiction|]. cbn [table_lookup]. destruct (N.eqb_spec c cp) as [->|Hn]; [eauto|].
  apply IH. destruct H; [congruence|auto].
Qed.
Lemma shipped_rules : rules (compose_file shipped_codes) = numbered 0 shipped_codes.
Proof. apply file_rules. eapply Forall_impl; [|exact shipped_high]. cbv beta; intros; lia. Qed.
