From Coq Require Import Lia.
From Verif Require Import Base Lib Str Types Ini Config SpecText.
Local Open Scope N_scope.

(* ---- action calls ------------------------------------------------------------------ *)
Lemma scan_arg_over b s : arg b s -> forall p rest acc, (b = false <-> p = O) ->
  scan_arg (s ++ rest) p acc = scan_arg rest p (rev s ++ acc).
Proof.
  induction 1 as [b|b c s H1 H2 H3 H4 A IH|b c s A IH|b u s A IH A2 IH2]; intros p rest acc Hp.
  - reflexivity.
  - cbn [app scan_arg]. rewrite (proj2 (N.eqb_neq c 92) H3), (proj2 (N.eqb_neq c 40) H1), (proj2 (N.eqb_neq c 41) H2).
    assert ((c =? 44) && Nat.eqb p 0 = false) as ->.
    { destruct p; [|now rewrite andb_false_r]. rewrite (proj2 (N.eqb_neq c 44) (H4 (proj2 Hp eq_refl))). reflexivity. }
    rewrite IH by easy. cbn [rev]. now rewrite <- app_assoc.
  - cbn [app scan_arg]. rewrite N.eqb_refl. rewrite IH by easy. cbn [rev]. now rewrite <- !app_assoc.
  - cbn [app scan_arg]. change (40 =? 92) with false. change (40 =? 40) with true. cbn iota.
    rewrite <- app_assoc. rewrite IH by (split; discriminate). cbn [app scan_arg].
    change (41 =? 92) with false. change (41 =? 40) with false. change (41 =? 41) with true. cbn iota.
    rewrite IH2 by easy. cbn [rev]. rewrite rev_app_distr. cbn [rev]. now rewrite <- !app_assoc.
Qed.
Fixpoint level (p : nat) (s : str) : Prop :=
  match p with
  | O => arg false s
  | S q => exists u v, s = u ++ 41 :: v /\ arg true u /\ level q v
  end.
Lemma level_char p c s : c <> 40 -> c <> 41 -> c <> 92 -> (p = O -> c <> 44) -> level p s -> level p (c :: s).
Proof.
  intros H1 H2 H3 H4 L. destruct p; cbn [level] in *.
  - apply arg_char; auto.
  - destruct L as [u [v [-> [A B]]]]. exists (c :: u), v. split; [easy|]. split; [|easy]. apply arg_char; auto. discriminate.
Qed.
Lemma level_escape p c s : level p s -> level p (92 :: c :: s).
Proof.
  intros L. destruct p; cbn [level] in *; [now apply arg_escape|].
  destruct L as [u [v [-> [A B]]]]. exists (92 :: c :: u), v. split; [easy|]. split; [|easy]. now apply arg_escape.
Qed.
Lemma level_open p s : level (S p) s -> level p (40 :: s).
Proof.
  intros [u [v [-> [A L]]]]. destruct p; cbn [level] in *.
  - now apply arg_call.
  - destruct L as [u2 [v2 [-> [A2 B]]]]. exists (40 :: u ++ 41 :: u2), v2.
    split; [cbn; now rewrite <- app_assoc|]. split; [|easy]. now apply arg_call.
Qed.
Lemma scan_arg_sound : forall n c p acc a stop r, (length c <= n)%nat -> scan_arg c p acc = Some (a, stop, r) ->
  exists u, a = rev acc ++ u /\ c = u ++ stop :: r /\ level p u /\ (stop = 41 \/ stop = 44).
Proof.
  induction n as [|n IH]; intros c p acc a stop r Hn H.
  { destruct c; [discriminate|cbn in Hn; lia]. }
  destruct c as [|x c]; [discriminate|]. cbn [scan_arg] in H. cbn [length] in Hn.
  destruct (N.eqb_spec x 92) as [->|N1].
  { destruct c as [|y c]; [discriminate|]. cbn [length] in Hn. apply IH in H; [|lia].
    destruct H as [u [-> [-> [L S]]]]. exists (92 :: y :: u). cbn [rev]. rewrite <- !app_assoc. split; [easy|].
    split; [easy|]. split; [now apply level_escape|easy]. }
  destruct (N.eqb_spec x 40) as [->|N2].
  { apply IH in H; [|lia]. destruct H as [u [-> [-> [L S]]]]. exists (40 :: u). cbn [rev]. rewrite <- !app_assoc.
    split; [easy|]. split; [easy|]. split; [now apply level_open|easy]. }
  destruct (N.eqb_spec x 41) as [->|N3].
  { destruct p as [|q].
    - injection H as <- <- <-. exists []. rewrite app_nil_r. split; [easy|]. split; [easy|]. split; [constructor|now left].
    - apply IH in H; [|lia]. destruct H as [u [-> [-> [L S]]]]. exists (41 :: u). cbn [rev]. rewrite <- !app_assoc.
      split; [easy|]. split; [easy|]. split; [|easy]. cbn [level]. exists [], u. split; [easy|]. split; [constructor|easy]. }
  destruct (N.eqb_spec x 44) as [->|N4]; [destruct (Nat.eqb_spec p 0) as [->|Np]|]; cbn [andb] in H.
  - injection H as <- <- <-. exists []. rewrite app_nil_r. split; [easy|]. split; [easy|]. split; [constructor|now right].
  - apply IH in H; [|lia]. destruct H as [u [-> [-> [L S]]]]. exists (44 :: u). cbn [rev]. rewrite <- !app_assoc.
    split; [easy|]. split; [easy|]. split; [|easy]. apply level_char; auto; congruence.
  - apply IH in H; [|lia]. destruct H as [u [-> [-> [L S]]]]. exists (x :: u). cbn [rev]. rewrite <- !app_assoc.
    split; [easy|]. split; [easy|]. split; [|easy]. apply level_char; auto.
Qed.
Lemma drop_blanks n a : (forall r, a <> 32 :: r) -> drop_while is_space32 (repeat 32 n ++ a) = a.
Proof.
  intros H. induction n as [|n IH]; cbn [repeat app drop_while].
  - destruct a as [|c r]; [easy|]. cbn [drop_while]. unfold is_space32 at 1.
    destruct (N.eqb_spec c 32) as [->|]; [|easy]. now destruct (H r).
  - unfold is_space32 at 1. now rewrite N.eqb_refl.
Qed.
Lemma drop_blanks_inv s : exists n, s = repeat 32 n ++ drop_while is_space32 s /\ (forall r, drop_while is_space32 s <> 32 :: r).
Proof.
  induction s as [|c s [n [IH1 IH2]]]; [now exists O|]. cbn [drop_while]. unfold is_space32 at 1 3.
  destruct (N.eqb_spec c 32) as [->|H].
  - exists (S n). cbn [repeat app]. now rewrite <- IH1.
  - exists O. split; [easy|]. congruence.
Qed.
Lemma given_cons n a r : given ((n, a) :: r) = (match a with [] => [] | _ => [a] end) ++ given r.
Proof. unfold given. cbn [map snd filter]. now destruct a. Qed.
Lemma listed_cons n a r : r <> [] -> listed ((n, a) :: r) = repeat 32 n ++ a ++ 44 :: listed r.
Proof. now destruct r as [|[m b] r]. Qed.

Definition after_blanks (items : list (nat * str)) : str :=
  match items with [] => [] | (_, a) :: r => match r with [] => a | _ => a ++ 44 :: listed r end end.
Lemma scan_args_ok : forall items args fuel rest, items <> [] -> Forall item items -> (length items <= fuel)%nat ->
  (length args + length (given items) <= 5)%nat ->
  scan_args fuel (drop_while is_space32 (listed items ++ 41 :: rest)) args = Ok (Some (args ++ given items)).
Proof.
  induction items as [|[n a] items IH]; intros args fuel rest NE F Hf Hl; [easy|].
  destruct fuel as [|fuel]; [cbn in Hf; lia|]. apply Forall_cons_iff in F as [[A Nb] F]. cbn [snd] in A, Nb.
  rewrite given_cons in *. cbn [length] in Hf.
  set (stop := match items with [] => 41 | _ => 44 end).
  set (tl := match items with [] => rest | _ => listed items ++ 41 :: rest end).
  assert (Et : drop_while is_space32 (listed ((n, a) :: items) ++ 41 :: rest) = a ++ stop :: tl).
  { destruct items as [|it items].
    - cbn [listed]. rewrite <- app_assoc. apply drop_blanks. intros r.
      destruct a as [|c a']; [discriminate|]. intros X. injection X as -> _. now destruct (Nb a').
    - rewrite listed_cons by easy. rewrite <- !app_assoc. cbn [app]. apply drop_blanks. intros r.
      destruct a as [|c a']; [discriminate|]. intros X. injection X as -> _. now destruct (Nb a'). }
  rewrite Et. cbn [scan_args]. rewrite (scan_arg_over false a A O (stop :: tl) []) by easy.
  assert (Es : scan_arg (stop :: tl) 0 (rev a ++ []) = Some (a, stop, tl)).
  { rewrite app_nil_r. unfold stop. destruct items; cbn [scan_arg].
    - change (41 =? 92) with false. change (41 =? 40) with false. change (41 =? 41) with true. cbn iota. now rewrite rev_involutive.
    - change (44 =? 92) with false. change (44 =? 40) with false. change (44 =? 41) with false. change ((44 =? 44) && Nat.eqb 0 0) with true.
      cbn iota. now rewrite rev_involutive. }
  rewrite Es.
  assert (Ea : (match a with [] => Ok args | _ :: _ => if Nat.ltb (length args) 5 then Ok (args ++ [a]) else Crash CFnArgs end)
    = Ok (args ++ (match a with [] => [] | _ => [a] end))).
  { destruct a; [now rewrite app_nil_r|]. destruct (Nat.ltb_spec (length args) 5); [easy|]. cbn [app length] in Hl. lia. }
  rewrite Ea. cbn [bind]. destruct items as [|it items].
  - unfold stop. change (41 =? 41) with true. cbn iota. unfold given. cbn. now rewrite app_nil_r.
  - unfold stop, tl. change (44 =? 41) with false. cbn iota. rewrite IH; [now rewrite <- app_assoc|easy|easy|lia|].
    rewrite app_length in Hl |- *. lia.
Qed.
Lemma scan_args_sound : forall fuel s args out, (forall r, s <> 32 :: r) -> scan_args fuel s args = Ok (Some out) ->
  exists items rest, items <> [] /\ Forall item items /\ hd_error (map fst items) = Some O /\
    s = listed items ++ 41 :: rest /\ out = args ++ given items.
Proof.
  induction fuel as [|fuel IH]; intros s args out Nb H; [discriminate|]. cbn [scan_args] in H.
  destruct (scan_arg s 0 []) as [[[a stop] r]|] eqn:Es; [|discriminate].
  apply (scan_arg_sound (length s)) in Es; [|lia]. destruct Es as [u [-> [-> [L St]]]]. cbn [rev app level] in *.
  assert (It : item (O, u)).
  { split; [easy|]. cbn [snd]. intros x E. subst u. now apply (Nb (x ++ stop :: r)). }
  assert (H2 : (if stop =? 41 then Ok (Some (args ++ (match u with [] => [] | _ => [u] end)))
                else scan_args fuel (drop_while is_space32 r) (args ++ (match u with [] => [] | _ => [u] end))) = Ok (Some out)).
  { destruct u as [|x u]; [now rewrite app_nil_r|]. destruct (Nat.ltb _ _) in H; [exact H|discriminate]. }
  clear H. rename H2 into H.  destruct (N.eqb_spec stop 41) as [->|Ns].
  - apply Ok_inj in H. injection H as <-. exists [(O, u)], r. split; [easy|]. split; [now constructor|]. split; [easy|].
    split; [easy|]. rewrite given_cons. unfold given. cbn. now rewrite app_nil_r.
  - destruct St as [->| ->]; [easy|]. destruct (drop_blanks_inv r) as [n [Er Nr]].
    apply IH in H; [|easy]. destruct H as [items [rest [NE [F [Hh [E1 ->]]]]]].
    destruct items as [|[m b] items]; [easy|]. cbn in Hh. injection Hh as ->.
    exists ((O, u) :: (n, b) :: items), rest. split; [easy|].
    apply Forall_cons_iff in F as [F1 F2]. split; [constructor; [easy|constructor; [exact F1|easy]]|]. split; [easy|].
    split.
    + rewrite listed_cons by easy. cbn [repeat app]. rewrite <- !app_assoc. f_equal. cbn [app]. f_equal. rewrite Er, E1.
      destruct items; cbn [listed repeat app]; now rewrite <- !app_assoc.
    + rewrite (given_cons O u). rewrite <- app_assoc. rewrite !given_cons. reflexivity.
Qed.
Lemma scan_arg_shorter c p acc a stop r : scan_arg c p acc = Some (a, stop, r) -> (length r < length c)%nat.
Proof.
  intros H. apply (scan_arg_sound (length c)) in H; [|lia]. destruct H as [u [_ [-> _]]]. rewrite app_length. cbn. lia.
Qed.
Lemma drop_while_le p s : (length (drop_while p s) <= length s)%nat.
Proof. induction s; cbn [drop_while]; [easy|]. destruct (p a); cbn [length]; lia. Qed.
Lemma scan_args_total : forall fuel s args, (length s < fuel)%nat ->
  scan_args fuel s args = Crash CFnArgs \/ exists o, scan_args fuel s args = Ok o.
Proof.
  induction fuel as [|fuel IH]; intros s args Hf; [lia|]. cbn [scan_args].
  destruct (scan_arg s 0 []) as [[[a stop] r]|] eqn:Es; [|eauto]. apply scan_arg_shorter in Es.
  destruct a as [|x a].
  - cbn [bind]. destruct (stop =? 41); [eauto|]. apply IH. pose proof (drop_while_le is_space32 r). lia.
  - destruct (Nat.ltb _ _); cbn [bind]; [|auto]. destruct (stop =? 41); [eauto|]. apply IH. pose proof (drop_while_le is_space32 r). lia.
Qed.
Lemma split_paren_over : forall name acc r, ~ In 40 name -> split_at_paren (name ++ 40 :: r) acc = Some (rev acc ++ name, r).
Proof.
  induction name as [|c name IH]; intros acc r H; cbn [app split_at_paren].
  - rewrite N.eqb_refl. now rewrite app_nil_r.
  - destruct (N.eqb_spec c 40) as [->|]; [destruct H; now left|]. rewrite IH; [|intros X; apply H; now right].
    cbn [rev]. now rewrite <- app_assoc.
Qed.
Lemma split_paren_sound : forall s acc n r, split_at_paren s acc = Some (n, r) ->
  exists u, n = rev acc ++ u /\ s = u ++ 40 :: r /\ ~ In 40 u.
Proof.
  induction s as [|c s IH]; intros acc n r H; [discriminate|]. cbn [split_at_paren] in H.
  destruct (N.eqb_spec c 40) as [->|Hc].
  - injection H as <- <-. exists []. rewrite app_nil_r. auto.
  - apply IH in H. destruct H as [u [-> [-> H]]]. exists (c :: u). cbn [rev]. rewrite <- app_assoc. split; [easy|].
    split; [easy|]. intros [X|X]; [congruence|auto].
Qed.
Lemma listed_length items : (length items <= S (length (listed items)))%nat.
Proof.
  induction items as [|[n a] items IH]; [cbn; lia|]. destruct items as [|it items]; [cbn [length]; lia|].
  rewrite listed_cons by easy. rewrite !app_length. cbn [length] in *. lia.
Qed.

(* ---- INI text ---------------------------------------------------------------------- *)
Lemma isspace_white c : isspace c = true <-> white c.
Proof.
  unfold isspace, white. rewrite orb_true_iff, andb_true_iff, N.eqb_eq, !N.leb_le. tauto.
Qed.
Lemma is_blank_blank c : is_blank c = true <-> blank c.
Proof. unfold is_blank, blank. now rewrite orb_true_iff, !N.eqb_eq. Qed.
Lemma drop_over p a t : Forall (fun c => p c = true) a -> drop_while p (a ++ t) = drop_while p t.
Proof. induction 1; cbn [app drop_while]; [easy|]. now rewrite H. Qed.
Lemma drop_stop p t : (forall c r, t = c :: r -> p c = false) -> drop_while p t = t.
Proof. intros H. destruct t as [|c r]; [easy|]. cbn [drop_while]. now rewrite (H c r eq_refl). Qed.
Lemma white_isspace a : Forall white a -> Forall (fun c => isspace c = true) a.
Proof. intros F. eapply Forall_impl; [|exact F]. cbn beta. intros c. now apply isspace_white. Qed.
Lemma strip_padded l t : padded l t -> tight t -> strip l = t.
Proof.
  intros [a [b [-> [A B]]]] [T1 T2]. unfold strip. rewrite (drop_over _ a) by now apply white_isspace.
  assert (nosp : forall c, ~ white c -> isspace c = false).
  { intros c H. destruct (isspace c) eqn:E; [|easy]. now apply isspace_white in E. }
  destruct t as [|x t].
  - cbn [app]. assert (drop_while isspace b = []) as ->; [|easy].
    rewrite <- (app_nil_r b). now rewrite (drop_over _ b) by now apply white_isspace.
  - rewrite drop_stop.
    + unfold rstrip. rewrite rev_app_distr. rewrite (drop_over _ (rev b)).
      * rewrite drop_stop; [apply rev_involutive|]. intros c r E. apply nosp. apply (T2 c (rev r)).
        rewrite <- (rev_involutive (x :: t)), E. reflexivity.
      * apply Forall_rev, white_isspace, B.
    + intros c r E. injection E as -> E. apply nosp. apply (T1 c t). reflexivity.
Qed.
Lemma strip_blank l : Forall white l -> strip l = [].
Proof. intros F. apply strip_padded; [|split; intros c r; [discriminate|destruct r; discriminate]]. exists l, []. now rewrite app_nil_r. Qed.
Lemma strip_comment l r : padded l (35 :: r) -> exists r', strip l = 35 :: r'.
Proof.
  intros [a [b [-> [A B]]]]. unfold strip. rewrite (drop_over _ a) by now apply white_isspace.
  rewrite drop_stop by (intros c q E; injection E as <- _; reflexivity).
  unfold rstrip. cbn [app]. change (rev (35 :: r ++ b)) with (rev (r ++ b) ++ [35]).
  generalize (rev (r ++ b)). induction l as [|x l IH]; [now exists []|].
  cbn [app drop_while]. destruct (isspace x); [apply IH|]. exists (rev l ++ [x]). cbn [rev]. rewrite rev_app_distr. reflexivity.
Qed.
Lemma ini_blank l ls secs : strip l = [] -> ini_lines (l :: ls) secs = ini_lines ls secs.
Proof. intros E. cbn [ini_lines]. now rewrite E. Qed.
Lemma ini_comment l r ls secs : strip l = 35 :: r -> ini_lines (l :: ls) secs = ini_lines ls secs.
Proof. intros E. cbn [ini_lines]. rewrite E. reflexivity. Qed.
Lemma tight_strip t : tight t -> strip t = t.
Proof. intros T. apply strip_padded; [|easy]. exists [], []. now rewrite app_nil_r. Qed.
Lemma ini_meaning ls ts : meaning ls ts -> forall secs, ini_lines ls secs = ini_lines ts secs.
Proof.
  induction 1 as [|l ls ts W M IH|l ls ts r P M IH|l t ls ts P T N C M IH]; intros secs.
  - reflexivity.
  - rewrite ini_blank by now apply strip_blank. apply IH.
  - destruct (strip_comment l r P) as [r' E]. rewrite (ini_comment l r') by easy. apply IH.
  - cbn [ini_lines]. rewrite (strip_padded l t P T), (tight_strip t T).
    destruct t as [|c t]; [easy|]. destruct (section_name (c :: t)) as [n|].
    + repeat match goal with |- context [if ?x then _ else _] => destruct x end; auto.
    + destruct (c =? 35); [auto|]. destruct secs as [|s ss]; [easy|]. destruct (N.ltb _ _); auto.
Qed.
Lemma lines_from_over l : ~ In 10 l -> forall r cur, lines_from (l ++ 10 :: r) cur = (rev cur ++ l) :: lines_from r [].
Proof.
  induction l as [|c l IH]; intros H r cur; cbn [app lines_from].
  - rewrite N.eqb_refl. now rewrite app_nil_r.
  - destruct (N.eqb_spec c 10) as [->|]; [destruct H; now left|]. rewrite IH by (intros X; apply H; now right).
    cbn [rev]. now rewrite <- app_assoc.
Qed.
Lemma lines_from_end l : ~ In 10 l -> forall cur, lines_from l cur = [rev cur ++ l].
Proof.
  induction l as [|c l IH]; intros H cur; cbn [lines_from]; [now rewrite app_nil_r|].
  destruct (N.eqb_spec c 10) as [->|]; [destruct H; now left|]. rewrite IH by (intros X; apply H; now right).
  cbn [rev]. now rewrite <- app_assoc.
Qed.
Lemma lines_join ls : ls <> [] -> Forall (fun l => ~ In 10 l) ls -> lines (join_lines ls) = ls.
Proof.
  unfold lines. induction ls as [|l ls IH]; intros NE F; [easy|]. apply Forall_cons_iff in F as [F1 F2].
  destruct ls as [|l2 ls]; [cbn [join_lines]; now rewrite lines_from_end|].
  change (join_lines (l :: l2 :: ls)) with (l ++ 10 :: join_lines (l2 :: ls)).
  rewrite lines_from_over by easy. now rewrite IH.
Qed.
Lemma lines_of_lines s ls : lines_of s ls -> lines s = ls.
Proof. intros [NE [-> F]]. now apply lines_join. Qed.
Lemma lines_of_total : forall s, exists ls, lines_of s ls.
Proof.
  induction s as [|c s [ls [NE [E F]]]].
  - exists [[]]. split; [easy|]. split; [easy|]. repeat constructor. easy.
  - destruct ls as [|l ls]; [easy|]. apply Forall_cons_iff in F as [F1 F2]. destruct (N.eq_dec c 10) as [->|Hc].
    + exists ([] :: l :: ls). split; [easy|]. split; [now rewrite E|]. repeat constructor; easy.
    + exists ((c :: l) :: ls). split; [easy|]. split.
      * rewrite E. now destruct ls.
      * constructor; [|easy]. intros [X|X]; [congruence|easy].
Qed.
Lemma section_name_header n : section_name (header n) = Some n.
Proof. unfold section_name, header. rewrite rev_app_distr. cbn [rev app]. now rewrite rev_involutive. Qed.
Lemma section_name_some l n : section_name l = Some n -> l = header n.
Proof.
  unfold section_name. intros H. destruct l as [|c r]; [discriminate|].
  destruct (N.eq_dec c 91) as [->|Hc].
  - destruct (rev r) as [|d q] eqn:E; [discriminate|]. destruct (N.eq_dec d 93) as [->|Hd].
    + injection H as <-. unfold header. f_equal. rewrite <- (rev_involutive r), E. reflexivity.
    + exfalso. revert H. destruct d as [|p]; [discriminate|]. repeat (destruct p as [p|p|]; try discriminate). congruence.
  - exfalso. revert H. destruct c as [|p]; [discriminate|]. repeat (destruct p as [p|p|]; try discriminate). congruence.
Qed.
Lemma section_name_none l : (forall n, l <> header n) -> section_name l = None.
Proof. intros H. destruct (section_name l) as [n|] eqn:E; [|easy]. apply section_name_some in E. now destruct (H n). Qed.

(* key and value *)
Definition kvp_sp (sp : option str) (acc : str) : str := match sp with Some p => p | None => acc end.
Lemma kvp_key k : ~ In 61 k -> (forall c r, k = r ++ [c] -> ~ blank c) -> k <> [] ->
  forall rest acc sp, kvp_scan (k ++ rest) acc sp = kvp_scan rest (rev k ++ acc) None.
Proof.
  induction k as [|c k IH]; intros N L NE rest acc sp; [easy|].
  cbn [app kvp_scan]. destruct (N.eqb_spec c 61) as [->|]; [destruct N; now left|].
  destruct k as [|d k].
  - cbn [app rev]. destruct (is_blank c) eqn:B; [|easy]. apply is_blank_blank in B. now destruct (L c [] eq_refl).
  - cbn [rev]. rewrite <- app_assoc. cbn [app].
    assert (IH' : forall sp, kvp_scan ((d :: k) ++ rest) (c :: acc) sp = kvp_scan rest (rev (d :: k) ++ c :: acc) None).
    { intros sp'. apply IH; [intros X; apply N; now right| |discriminate]. intros x r E. apply (L x (c :: r)). now rewrite E. }
    destruct (is_blank c); apply IH'.
Qed.
Lemma kvp_blanks b : Forall blank b -> forall rest acc sp,
  exists acc' sp', kvp_scan (b ++ rest) acc sp = kvp_scan rest acc' sp' /\ kvp_sp sp' acc' = kvp_sp sp acc.
Proof.
  induction 1 as [|c b B F IH]; intros rest acc sp; [now exists acc, sp|].
  cbn [app kvp_scan]. destruct (N.eqb_spec c 61) as [->|]; [destruct B; discriminate|].
  rewrite (proj2 (is_blank_blank c) B).
  destruct (IH rest (c :: acc) (match sp with Some p => Some p | None => Some acc end)) as [a [s [E1 E2]]].
  exists a, s. split; [exact E1|]. rewrite E2. now destruct sp.
Qed.
Lemma kvp_none s : ~ In 61 s -> forall acc sp, kvp_scan s acc sp = None.
Proof.
  induction s as [|c s IH]; intros N acc sp; [easy|]. cbn [kvp_scan].
  destruct (N.eqb_spec c 61) as [->|]; [destruct N; now left|]. destruct (is_blank c); apply IH; intros X; apply N; now right.
Qed.
Lemma parse_kvp_unfold s : parse_kvp s =
  match (match s with c :: r => if c =? 61 then kvp_scan r [61] None else kvp_scan s [] None | [] => None end) with
  | Some (k, v) => (k, Some v) | None => (s, None) end.
Proof.
  unfold parse_kvp. destruct s as [|c r]; [easy|]. destruct (N.eqb_spec c 61) as [->|H]; [easy|].
  destruct c as [|p]; [easy|]. repeat (destruct p as [p|p|]; try easy). 
Qed.
Lemma entry_ok l e : entry l e -> parse_kvp l = e.
Proof.
  intros H. rewrite parse_kvp_unfold. destruct H as [k b1 b2 v NE K L B1 B2 V|k K].
  - destruct k as [|c k].
    { destruct b1 as [|d b1]; [now destruct (NE eq_refl)|]. cbn [app]. pose proof B1 as B1'.
      apply Forall_cons_iff in B1 as [Bd _]. destruct (N.eqb_spec d 61) as [->|_]; [destruct Bd; discriminate|].
      change (d :: b1 ++ 61 :: b2 ++ v) with ((d :: b1) ++ 61 :: b2 ++ v).
      destruct (kvp_blanks (d :: b1) B1' (61 :: b2 ++ v) [] None) as [a [s [-> E2]]]. cbn [kvp_scan]. rewrite N.eqb_refl.
      apply pair_equal_spec. split; [exact (f_equal (@rev N) E2)|]. f_equal.
      rewrite drop_over; [|eapply Forall_impl; [|exact B2]; intros x; apply is_blank_blank].
      apply drop_stop. intros x r ->. destruct (is_blank x) eqn:X; [|easy]. apply is_blank_blank in X. now destruct (V x r eq_refl). }
    cbn [app].
    assert (G : exists acc, rev acc = c :: k /\ (if c =? 61 then kvp_scan (k ++ b1 ++ 61 :: b2 ++ v) [61] None
              else kvp_scan (c :: k ++ b1 ++ 61 :: b2 ++ v) [] None) = kvp_scan (b1 ++ 61 :: b2 ++ v) acc None).
    { exists (rev (c :: k)). split; [apply rev_involutive|]. destruct (N.eqb_spec c 61) as [->|Hc].
      - destruct k as [|d k]; [reflexivity|]. rewrite kvp_key; [cbn [rev]; now rewrite <- app_assoc| |intros x r E|discriminate].
        + now apply (K 61).
        + apply (L x (61 :: r)). now rewrite E.
      - change (c :: k ++ b1 ++ 61 :: b2 ++ v) with ((c :: k) ++ b1 ++ 61 :: b2 ++ v).
        rewrite kvp_key; [now rewrite app_nil_r| |easy|easy]. intros [X|X]; [congruence|]. now apply (K c k). }
    destruct G as [acc [E ->]]. destruct (kvp_blanks b1 B1 (61 :: b2 ++ v) acc None) as [a [s [-> E2]]].
    cbn [kvp_scan]. rewrite N.eqb_refl. apply pair_equal_spec. split; [exact (eq_trans (f_equal (@rev N) E2) E)|]. f_equal.
    rewrite drop_over; [|eapply Forall_impl; [|exact B2]; intros x; apply is_blank_blank].
    apply drop_stop. intros x r ->. destruct (is_blank x) eqn:X; [|easy]. apply is_blank_blank in X. now destruct (V x r eq_refl).
  - destruct k as [|c k]; [easy|]. specialize (K c k eq_refl). destruct (N.eqb_spec c 61) as [->|Hc].
    + now rewrite kvp_none.
    + rewrite kvp_none; [easy|]. intros [X|X]; [congruence|easy].
Qed.

(* every line has such a reading *)
Lemma split_eq : forall s, In 61 s -> exists a b, s = a ++ 61 :: b /\ ~ In 61 a.
Proof.
  induction s as [|c s IH]; intros H; [easy|]. destruct (N.eq_dec c 61) as [->|Hc].
  - exists [], s. auto.
  - destruct H as [H|H]; [congruence|]. destruct (IH H) as [a [b [-> N]]]. exists (c :: a), b. split; [easy|].
    intros [X|X]; [congruence|easy].
Qed.
Definition blankb_dec c : {blank c} + {~ blank c}.
Proof. unfold blank. destruct (N.eq_dec c 32); [left; auto|]. destruct (N.eq_dec c 9); [left; auto|right; intuition]. Defined.
Lemma trailing (P : N -> Prop) (dec : forall c, {P c} + {~ P c}) : forall s, exists a b, s = a ++ b /\ Forall P b /\ (forall c r, a = r ++ [c] -> ~ P c).
Proof.
  intros s. rewrite <- (rev_involutive s). generalize (rev s). clear s. induction l as [|c l [a [b [E [F L]]]]].
  - exists [], []. repeat split; auto. intros c r X. now destruct r.
  - cbn [rev]. destruct (dec c) as [Hc|Hc].
    + exists a, (b ++ [c]). rewrite E, <- app_assoc. split; [easy|]. split; [|easy]. apply Forall_app. split; [easy|now repeat constructor].
    + exists (rev l ++ [c]), []. rewrite app_nil_r. split; [easy|]. split; [constructor|]. intros d r X. apply app_inj_tail in X as [_ <-]. easy.
Qed.
Lemma leading (P : N -> Prop) (dec : forall c, {P c} + {~ P c}) : forall s, exists a b, s = a ++ b /\ Forall P a /\ (forall c r, b = c :: r -> ~ P c).
Proof.
  induction s as [|c s [a [b [E [F L]]]]].
  - exists [], []. repeat split; auto. discriminate.
  - destruct (dec c) as [Hc|Hc].
    + exists (c :: a), b. rewrite E. split; [easy|]. split; [now constructor|easy].
    + exists [], (c :: s). split; [easy|]. split; [constructor|]. congruence.
Qed.
Lemma entry_total l : exists e, entry l e.
Proof.
  destruct l as [|c l]; [exists ([], None); now apply entry_word|].
  destruct (in_dec N.eq_dec 61 l) as [H|H].
  - destruct (split_eq l H) as [a [v0 [-> Na]]].
    destruct (trailing blank blankb_dec (c :: a)) as [k [b1 [E [F1 L1]]]].
    destruct (leading blank blankb_dec v0) as [b2 [v [-> [F2 L2]]]].
    exists (k, Some v). change (c :: a ++ 61 :: b2 ++ v) with ((c :: a) ++ 61 :: b2 ++ v). rewrite E, <- app_assoc.
    apply entry_value; auto.
    + intros -> ->. discriminate.
    + intros x r ->. injection E as <- ->. intros X. apply Na. apply in_or_app. now left.
  - exists (c :: l, None). apply entry_word. intros x r X. injection X as <- <-. easy.
Qed.
Definition white_dec c : {white c} + {~ white c}.
Proof. destruct (isspace c) eqn:E; [left; now apply isspace_white|right; intros H; apply isspace_white in H; congruence]. Defined.
Lemma line_total l : exists a t b, l = a ++ t ++ b /\ Forall white a /\ Forall white b /\ tight t.
Proof.
  destruct (leading white white_dec l) as [a [u [-> [F1 L1]]]]. destruct (trailing white white_dec u) as [t [b [-> [F2 L2]]]].
  exists a, t, b. split; [easy|]. split; [easy|]. split; [easy|]. split; [|easy].
  intros c r ->. apply (L1 c (r ++ b)). reflexivity.
Qed.
Lemma meaning_total : forall ls, exists ts, meaning ls ts.
Proof.
  induction ls as [|l ls [ts IH]]; [exists []; constructor|].
  destruct (line_total l) as [a [t [b [E [A [B T]]]]]]. destruct t as [|c t].
  - exists ts. apply meaning_blank; [|easy]. rewrite E. now apply Forall_app.
  - destruct (N.eq_dec c 35) as [->|Hc].
    + exists ts. apply (meaning_comment _ _ _ t); [|easy]. now exists a, b.
    + exists ((c :: t) :: ts). apply meaning_line; auto; try congruence. now exists a, b.
Qed.
Lemma meaning_tight ls ts : meaning ls ts -> Forall (fun t => tight t /\ t <> [] /\ (forall r, t <> 35 :: r)) ts.
Proof. induction 1; auto. Qed.

(* sections *)
Lemma ini_header n ls secs : tight (header n) -> (length secs < 32)%nat -> N.of_nat (length n) < 256 ->
  ini_lines (header n :: ls) secs = ini_lines ls (mkSec n [] :: secs).
Proof.
  intros T L1 L2. cbn [ini_lines]. rewrite (tight_strip _ T). rewrite section_name_header. cbn [header].
  unfold header. unfold MAX_SECTIONS. destruct (Nat.ltb_spec (length secs) 32); [|lia].
  destruct (N.ltb_spec (N.of_nat (length n)) 256); [easy|lia].
Qed.
Lemma tight_header n : tight (header n).
Proof.
  split; intros c r E.
  - injection E as <- _. unfold white. lia.
  - unfold header in E. change (91 :: n ++ [93]) with ((91 :: n) ++ [93]) in E. apply app_inj_tail in E as [_ <-]. unfold white. lia.
Qed.
Lemma ini_entry l e n es ls secs : tight l -> l <> [] -> (forall r, l <> 35 :: r) -> (forall n', l <> header n') -> entry l e ->
  N.of_nat (length es) < 1024 ->
  ini_lines (l :: ls) (mkSec n es :: secs) = ini_lines ls (mkSec n (e :: es) :: secs).
Proof.
  intros T NE NC NH E L. cbn [ini_lines]. rewrite (tight_strip _ T). destruct l as [|c l]; [easy|].
  rewrite section_name_none by easy. destruct (N.eqb_spec c 35) as [->|]; [now destruct (NC l)|].
  cbn [sec_entries sec_name]. unfold MAX_SECTION_ENTRIES. destruct (N.ltb_spec (N.of_nat (length es)) 1024); [|lia].
  now rewrite (entry_ok _ _ E).
Qed.
Lemma ini_entries n : forall ts es, Forall2 (fun l e => entry l e /\ (forall n', l <> header n')) ts es ->
  Forall (fun t => tight t /\ t <> [] /\ (forall r, t <> 35 :: r)) ts ->
  forall done ls secs, N.of_nat (length done + length es) <= 1024 ->
  ini_lines (ts ++ ls) (mkSec n done :: secs) = ini_lines ls (mkSec n (rev es ++ done) :: secs).
Proof.
  induction 1 as [|l e ts es [E NH] F IH]; intros G done ls secs L; [reflexivity|].
  apply Forall_cons_iff in G as [[T [NE NC]] G]. cbn [app]. cbn [length] in L.
  rewrite (ini_entry l e); auto; [|lia]. rewrite IH; [|easy|cbn [length]; lia]. cbn [rev]. now rewrite <- app_assoc.
Qed.
Definition sec_of (p : str * list (str * option str)) : section := mkSec (fst p) (snd p).
Definition sec_rev (s : section) : section := mkSec (sec_name s) (rev (sec_entries s)).
Lemma ini_file ts secs : file ts secs -> Forall (fun t => tight t /\ t <> [] /\ (forall r, t <> 35 :: r)) ts ->
  forall done, (length done + length secs <= 32)%nat ->
  Forall (fun p => N.of_nat (length (fst p)) < 256 /\ N.of_nat (length (snd p)) <= 1024) secs ->
  ini_lines ts done = Ok (Some (rev (map sec_rev done) ++ map sec_of secs)).
Proof.
  induction 1 as [|n es ts secs r F Hf IH]; intros G done L S.
  - cbn [ini_lines map]. now rewrite app_nil_r.
  - apply Forall_cons_iff in G as [[T _] G]. apply Forall_app in G as [G1 G2].
    apply Forall_cons_iff in S as [[S1 S2] S]. cbn [fst snd] in S1, S2. cbn [length] in L.
    rewrite ini_header by (auto; lia). rewrite (ini_entries n ts es) by (auto; cbn [length]; lia).
    rewrite IH; auto; [|cbn [length]; lia]. cbn [map rev]. unfold sec_rev at 2. cbn [sec_name sec_entries].
    rewrite app_nil_r, rev_involutive, <- app_assoc. reflexivity.
Qed.
(* and conversely *)
Lemma ini_sound_tail : forall ts done out, Forall (fun t => tight t /\ t <> [] /\ (forall r, t <> 35 :: r)) ts ->
  ini_lines ts done = Ok (Some out) ->
  exists l1 es l2 secs, ts = l1 ++ l2 /\ Forall2 (fun l e => entry l e /\ (forall n', l <> header n')) l1 es /\ file l2 secs /\
    (match done with
     | [] => l1 = [] /\ out = map sec_of secs
     | s :: d => out = rev (map sec_rev d) ++ mkSec (sec_name s) (rev (sec_entries s) ++ es) :: map sec_of secs
     end).
Proof.
  induction ts as [|t ts IH]; intros done out G H.
  - cbn [ini_lines] in H. apply Ok_inj in H. injection H as <-. exists [], [], [], [].
    split; [easy|]. split; [constructor|]. split; [constructor|]. destruct done as [|s d]; [auto|].
    cbn [map rev]. now rewrite app_nil_r.
  - apply Forall_cons_iff in G as [[T [NE NC]] G]. cbn [ini_lines] in H. rewrite (tight_strip _ T) in H.
    destruct t as [|c t]; [easy|]. destruct (section_name (c :: t)) as [n|] eqn:Es.
    + apply section_name_some in Es. destruct (Nat.ltb _ _) in H; [|discriminate]. destruct (N.ltb _ _) in H; [|discriminate].
      apply IH in H; [|easy]. destruct H as [l1 [es [l2 [secs [E [F [Hf Ho]]]]]]]. cbn [sec_name sec_entries rev app] in Ho.
      exists [], [], ((c :: t) :: ts), ((n, es) :: secs). split; [easy|]. split; [constructor|].
      split; [rewrite Es, E; now apply file_section|]. subst out. destruct done as [|s d]; [easy|].
      cbn [map rev]. rewrite app_nil_r, <- app_assoc. reflexivity.
    + destruct (N.eqb_spec c 35) as [->|_]; [now destruct (NC t)|]. destruct done as [|s d]; [discriminate|].
      destruct (N.ltb _ _) in H; [|discriminate]. apply IH in H; [|easy].
      destruct H as [l1 [es [l2 [secs [E [F [Hf Ho]]]]]]]. cbn [sec_name sec_entries] in Ho.
      destruct (entry_total (c :: t)) as [e He]. exists ((c :: t) :: l1), (e :: es), l2, secs.
      split; [now rewrite E|]. split.
      * constructor; [|easy]. split; [easy|]. intros n' X. rewrite X, section_name_header in Es. discriminate.
      * split; [easy|]. rewrite (entry_ok _ _ He) in Ho. cbn [rev] in Ho. rewrite <- app_assoc in Ho. exact Ho.
Qed.
