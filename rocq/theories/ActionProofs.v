(* Proofs for the meaning of actions (C59). *)
From Coq Require Import String Lia.
From Verif Require Import Base Lib KeyTable Keys Types Str UnicodeTable MacroParse Ini Config SpecNotation SpecText SpecBind SpecClient SpecExpr
  NotationProofs MacroProofs TextProofs BindProofs ParseWf ParseFrame PropNotation PropClient ExprProofs.
Local Open Scope N_scope.
Local Open Scope list_scope.
Local Notation length := List.length.
Local Opaque parse_key_sequence us_rows unicode_runs unicode_lookup_index keycode_table.

(* ---- escapes --------------------------------------------------------------------------- *)
Lemma escape_un s : unescaped s (str_escape s).
Proof.
  remember (length s) as n eqn:Hn. revert s Hn. induction n as [n IH] using lt_wf_ind. intros s ->.
  assert (G : forall t, (length t < length s)%nat -> unescaped t (str_escape t)) by (intros t Ht; eapply IH; eauto). clear IH.
  destruct s as [|c s]; [constructor|]. destruct (N.eq_dec c 92) as [->|Hc].
  - destruct s as [|d s]; [constructor|]. specialize (G s ltac:(cbn [length]; lia)). cbn [str_escape].
    destruct (N.eq_dec d 110) as [->|H1]; [now apply un_newline|]. destruct (N.eq_dec d 116) as [->|H2]; [now apply un_tab|].
    destruct (N.eq_dec d 92) as [->|H3]; [apply un_itself; auto|]. destruct (N.eq_dec d 40) as [->|H4]; [apply un_itself; auto|].
    destruct (N.eq_dec d 41) as [->|H5]; [apply un_itself; auto|].
    assert (X : unescaped (92 :: d :: s) (92 :: d :: str_escape s)) by (apply un_other; auto).
    destruct d as [|p]; [exact X|]. repeat (destruct p as [p|p|]; try exact X; try congruence).
  - specialize (G s ltac:(cbn [length]; lia)). assert (X : unescaped (c :: s) (c :: str_escape s)) by (apply un_char; auto).
    cbn [str_escape]. destruct c as [|p]; [exact X|]. repeat (destruct p as [p|p|]; try exact X; try congruence).
Qed.
Lemma escape_fun s t : unescaped s t -> str_escape s = t.
Proof.
  intros H. induction H; cbn [str_escape]; subst; auto.
  - destruct c as [|p]; [reflexivity|]. repeat (destruct p as [p|p|]; try reflexivity; try congruence).
  - destruct H as [->|[->| ->]]; reflexivity.
  - destruct c as [|p]; [reflexivity|]. repeat (destruct p as [p|p|]; try reflexivity; try congruence).
Qed.
Lemma escape_char c s : c <> 92 -> str_escape (c :: s) = c :: str_escape s.
Proof. intros H. cbn [str_escape]. destruct c as [|p]; [reflexivity|]. repeat (destruct p as [p|p|]; try reflexivity; try congruence). Qed.
Lemma escape_high u : (forall b, In b u -> 128 <= b) -> forall r, str_escape (u ++ r) = u ++ str_escape r.
Proof.
  induction u as [|x u IH]; intros H r; [reflexivity|]. cbn [app]. rewrite escape_char, IH; auto.
  - intros b I. apply H. now right.
  - specialize (H x (or_introl eq_refl)). lia.
Qed.
Lemma escape_other c s : 128 <= c -> str_escape (92 :: c :: s) = 92 :: c :: str_escape s.
Proof.
  intros H. cbn [str_escape]. destruct c as [|p]; [reflexivity|]. repeat (destruct p as [p|p|]; try reflexivity; try lia).
Qed.
Lemma text_cons c s : 0 < c < 128 -> utf8_text s -> utf8_text (c :: s).
Proof.
  intros H [cps [F ->]]. exists (c :: cps). split; [constructor; auto; unfold scalar; lia|]. cbn [flat_map]. now rewrite utf8_low by lia.
Qed.
Lemma text_app a b : utf8_text a -> utf8_text b -> utf8_text (a ++ b).
Proof. intros [x [F ->]] [y [G ->]]. exists (x ++ y). split; [now apply Forall_app|]. now rewrite flat_map_app. Qed.
Lemma text_utf8 cp : scalar cp -> utf8_text (utf8 cp).
Proof. intros S. exists [cp]. split; [now constructor|]. cbn [flat_map]. now rewrite app_nil_r. Qed.
Lemma text_nil : utf8_text []. Proof. exists []. auto. Qed.
Lemma escape_text s : utf8_text s -> utf8_text (str_escape s).
Proof.
  intros [cps [F ->]]. remember (length cps) as n eqn:Hn. revert cps Hn F. induction n as [n IH] using lt_wf_ind. intros cps -> F.
  destruct cps as [|c cps]; [apply text_nil|]. apply Forall_cons_iff in F as [F1 F2].
  assert (G : forall l, (length l < S (length cps))%nat -> Forall scalar l -> utf8_text (str_escape (flat_map utf8 l)))
    by (intros l Hl Fl; eapply IH; eauto).
  cbn [flat_map]. destruct (N.lt_ge_cases c 128) as [Hc|Hc].
  - rewrite utf8_low by auto. cbn [app]. destruct (N.eq_dec c 92) as [->|Hn].
    + destruct cps as [|d cps]; [cbn; apply text_nil|]. apply Forall_cons_iff in F2 as [F2 F3]. cbn [flat_map]. pose proof (G cps ltac:(cbn [length]; lia) F3) as Gd.
      destruct (N.lt_ge_cases d 128) as [Hd|Hd].
      * rewrite utf8_low by auto. cbn [app]. pose proof (escape_un (92 :: d :: flat_map utf8 cps)) as U.
        remember (str_escape (92 :: d :: flat_map utf8 cps)) as z eqn:Ez. clear Ez.
        inversion U; subst; try congruence; (match goal with H : unescaped (flat_map utf8 cps) _ |- _ => apply escape_fun in H; subst end);
          unfold scalar in *; repeat apply text_cons; auto; lia.
      * destruct (utf8 d) as [|b u] eqn:E; [destruct (utf8_nonempty d) as [k K]; rewrite E in K; discriminate|]. cbn [app].
        assert (Hb : forall x, In x (b :: u) -> 128 <= x) by (intros x I; rewrite <- E in I; eapply utf8_high; eauto).
        rewrite escape_other by (apply Hb; now left). rewrite escape_high by (intros x I; apply Hb; now right).
        apply text_cons; [lia|]. change (utf8_text ((b :: u) ++ str_escape (flat_map utf8 cps))). rewrite <- E. apply text_app; auto. now apply text_utf8.
    + rewrite escape_char by auto. apply text_cons; [unfold scalar in *; lia|]. apply G; auto.
  - rewrite escape_high by (intros b I; eapply utf8_high; eauto). apply text_app; [now apply text_utf8|]. apply G; auto.
Qed.

(* ---- commands -------------------------------------------------------------------------- *)
Lemma has_prefix_iff p : forall s, has_prefix p s = true <-> exists r, s = p ++ r.
Proof.
  induction p as [|x p IH]; intros s; cbn [has_prefix].
  - split; [intros _; now exists s|auto].
  - destruct s as [|y s]; [split; [discriminate|intros [r E]; discriminate]|]. rewrite andb_true_iff, N.eqb_eq, IH. split.
    + intros [-> [r ->]]. exists r. reflexivity.
    + intros [r E]. injection E as -> E. eauto.
Qed.
Lemma wrapped p s : last p 0 <> 41 -> has_prefix p s && (last s 0 =? 41) = true <-> exists body, s = p ++ body ++ [41].
Proof.
  intros Hp. rewrite andb_true_iff, has_prefix_iff, N.eqb_eq. split.
  - intros [[r ->] H]. destruct (nil_or_last r) as [->|[b [x ->]]]; [rewrite app_nil_r in H; congruence|].
    rewrite app_assoc, last_last in H. subst x. eauto.
  - intros [body ->]. split; [eauto|]. now rewrite app_assoc, last_last.
Qed.
Lemma body_between p body : skipn (length p) (removelast (p ++ body ++ [41])) = body.
Proof.
  rewrite app_assoc, removelast_last. induction p; cbn; auto.
Qed.
Lemma command_iff s cmd : parse_command s = POk cmd <-> command_text s cmd.
Proof.
  unfold parse_command, command_text. destruct (negb (has_prefix (bs "command(") s) || negb (last s 0 =? 41)) eqn:E.
  - split; [discriminate|]. intros [body [X _]]. rewrite <- negb_andb, negb_true_iff in E.
    assert (T : has_prefix (bs "command(") s && (last s 0 =? 41) = true) by (apply wrapped; [discriminate|eauto]). congruence.
  - rewrite <- negb_andb, negb_false_iff in E. apply wrapped in E as [body ->]; [|discriminate].
    change 8%nat with (length (bs "command(")). rewrite body_between. destruct (N.ltb_spec 256 (N.of_nat (length (bs "command(" ++ body ++ [41])))) as [L|L].
    + split; [discriminate|]. intros [b [X [Y _]]]. lia.
    + split.
      * intros X. injection X as <-. exists body. split; auto. split; [lia|]. apply escape_un.
      * intros [b [X [_ U]]]. apply app_inv_head, app_inj_tail in X as [-> _]. apply escape_fun in U. now subst.
Qed.
Lemma command_shape s : parse_command s <> PInvalid -> exists body, s = bs "command(" ++ body ++ [41].
Proof.
  unfold parse_command. destruct (negb (has_prefix (bs "command(") s) || negb (last s 0 =? 41)) eqn:E; [congruence|]. intros _.
  rewrite <- negb_andb, negb_false_iff in E. apply wrapped in E; auto. discriminate.
Qed.

(* ---- keys have no parentheses to call with ----------------------------------------------- *)
Definition parens (nm : str) : bool := existsb (N.eqb 40) nm && existsb (N.eqb 41) nm.
Definition opt_parens (o : option str) : bool := match o with Some nm => parens nm | None => false end.
Lemma no_parens_checked : forallb (fun e : keyent => negb (opt_parens (fst (fst e)) || opt_parens (snd (fst e)) || opt_parens (snd e))) keycode_table = true.
Proof. vm_compute. reflexivity. Qed.
Lemma row_no_parens c nm : name_of c = Some nm \/ alt_name_of c = Some nm \/ shifted_name_of c = Some nm -> parens nm = false.
Proof.
  intros H. unfold name_of, alt_name_of, shifted_name_of, row in H. pose proof no_parens_checked as X. rewrite forallb_forall in X.
  destruct (nth_in_or_default (N.to_nat c) keycode_table no_key) as [I|E].
  - specialize (X _ I). rewrite negb_true_iff, !orb_false_iff in X. destruct X as [[A B] C].
    destruct H as [H|[H|H]]; rewrite H in *; auto.
  - rewrite E in H. destruct H as [H|[H|H]]; discriminate.
Qed.
Lemma dashed_letters ls x : Forall (fun l => exists b, letter l b) ls -> In x (dashed ls) -> x <> 40 /\ x <> 41.
Proof.
  intros F I. unfold dashed in I. apply in_flat_map in I as [l [I J]]. rewrite Forall_forall in F. destruct (F l I) as [b B].
  destruct J as [<-|[<-|[]]]; [destruct B|]; lia.
Qed.
Lemma key_parens s : is_key s -> In 40 s -> In 41 s -> False.
Proof.
  intros [c [m K]] I J.
  assert (G : forall ls nm, Forall (fun l => exists b, letter l b) ls -> parens nm = false -> In 40 (dashed ls ++ nm) -> In 41 (dashed ls ++ nm) -> False).
  { clear. intros ls nm F P I J. apply in_app_or in I, J. destruct I as [I|I]; [apply dashed_letters in I; tauto|].
    destruct J as [J|J]; [apply dashed_letters in J; tauto|]. unfold parens in P. rewrite andb_false_iff in P.
    destruct P as [P|P]; [apply has_char_iff in I|apply has_char_iff in J]; unfold has_char in *; congruence. }
  destruct K as [ls nm c m N H D|ls nm c m N H D|ls m N D].
  - apply (G ls nm); auto; [apply D|]. apply (row_no_parens c). tauto.
  - apply (G ls nm); auto; [destruct D as [F _]; now apply Forall_app in F|]. apply (row_no_parens c). tauto.
  - rewrite <- (app_nil_r (dashed ls)) in I, J. apply (G ls []); auto. apply D.
Qed.

(* ---- macro expressions ------------------------------------------------------------------- *)
Lemma macro_between body : utf8_text (bs "macro(" ++ body ++ [41]) -> utf8_text body.
Proof.
  intros T. change (bs "macro(" ++ body ++ [41]) with (bs "macro" ++ 40 :: body ++ [41]) in T.
  apply text_split in T as [_ T]; [|lia]. now apply text_split in T as [T _].
Qed.
Lemma one_char s : utf8_text s -> exists n, utf8_strlen s = Ok n /\ (n = 1%nat <-> exists cp, scalar cp /\ s = utf8 cp).
Proof.
  intros [cps [F ->]]. exists (length cps). split; [now apply C36_strlen|]. split.
  - destruct cps as [|c [|d cps]]; try discriminate. inversion F; subst. intros _. exists c. split; auto. cbn [flat_map]. apply app_nil_r.
  - intros [cp [S E]]. assert (flat_map utf8 cps = flat_map utf8 [cp]) by (cbn [flat_map]; rewrite app_nil_r; auto).
    apply utf8_inj in H; auto. now subst.
Qed.
Lemma utf8_max cp : (length (utf8 cp) <= 4)%nat.
Proof. unfold utf8. destruct (cp <? 128), (cp <? 2048), (cp <? 65536); cbn; lia. Qed.
Lemma macro_expr_ok s : utf8_text s -> exists r, parse_macro_expression s = Ok r
  /\ (forall m, r = POk m <-> macro_expr s m)
  /\ (~ is_key s -> r <> PInvalid -> (exists body, s = bs "macro(" ++ body ++ [41]) \/ exists cp, scalar cp /\ s = utf8 cp).
Proof.
  intros T. unfold parse_macro_expression. destruct (N.leb_spec 1024 (N.of_nat (length s))) as [L|L].
  - eexists. split; [reflexivity|]. split; [|congruence]. intros m. split; [discriminate|]. intros H.
    destruct H as [body b es B U M Fi|s es B]; [|lia]. rewrite !app_length in L. cbn [length bs] in L.
    change (length (bs "macro(")) with 6%nat in L. lia.
  - destruct (has_prefix (bs "macro(") s && (last s 0 =? 41)) eqn:P.
    + apply wrapped in P as [body ->]; [|discriminate]. change 6%nat with (length (bs "macro(")). rewrite body_between.
      pose proof (macro_between _ T) as Tb. destruct (macro_ok _ (escape_text _ Tb)) as [o [E X]]. rewrite E. cbn [bind].
      eexists. split; [reflexivity|]. split; [|eauto]. intros m.
      assert (Y : (match o with None => PError | Some m => POk m end) = POk m <-> o = Some m) by (destruct o; split; congruence).
      rewrite Y, X. split.
      * intros [es [M [Fi ->]]]. apply (me_macro _ (str_escape body)); auto; [|apply escape_un].
        rewrite !app_length in L. cbn [length] in L. change (length (bs "macro(")) with 6%nat in L. lia.
      * intros H. remember (bs "macro(" ++ body ++ [41]) as s eqn:Es. destruct H as [body' b es B U M Fi|s es B K M Fi].
        -- apply app_inv_head, app_inj_tail in Es as [-> _]. apply escape_fun in U. subst b. eauto.
        -- exfalso. subst s. destruct K as [K|[cp [_ K]]].
           ++ eapply key_parens; [exact K| |]; apply in_or_app; [left; vm_compute; tauto|right; apply in_or_app; right; now left].
           ++ pose proof (utf8_max cp) as Q. rewrite <- K, !app_length in Q. cbn [length] in Q. change (length (bs "macro(")) with 6%nat in Q. lia.
    + assert (P' : forall body, s <> bs "macro(" ++ body ++ [41]).
      { intros body ->. assert (Q : has_prefix (bs "macro(") (bs "macro(" ++ body ++ [41]) && (last (bs "macro(" ++ body ++ [41]) 0 =? 41) = true) by (apply wrapped; [discriminate|eauto]). congruence. }
      destruct (one_char s T) as [n [En Hn]].
      assert (V : exists v, (match parse_key_sequence s with Some _ => Ok true | None => n <- utf8_strlen s ;; Ok (Nat.eqb n 1) end) = Ok v
                /\ (v = true <-> is_key s \/ exists cp, scalar cp /\ s = utf8 cp)).
      { destruct (parse_key_sequence s) as [[c m]|] eqn:K.
        - exists true. split; auto. split; auto. intros _. left. exists c, m. now apply key_parses.
        - exists (Nat.eqb n 1). rewrite En. split; auto. rewrite Nat.eqb_eq, Hn. apply not_key in K. tauto. }
      destruct V as [v [-> V]]. cbn [bind]. destruct v.
      * destruct (macro_ok _ T) as [o [E X]]. rewrite E. cbn [bind]. eexists. split; [reflexivity|]. split.
        -- intros m. assert (Y : (match o with None => PError | Some m => POk m end) = POk m <-> o = Some m) by (destruct o; split; congruence).
           rewrite Y, X. split.
           ++ intros [es [M [Fi ->]]]. apply me_short; auto. now apply V.
           ++ intros H. destruct H as [body' b es B U M Fi|s es B K M Fi]; [now destruct (P' body')|]. eauto.
        -- intros K _. right. destruct (proj1 V eq_refl) as [Q|Q]; [contradiction|auto].
      * eexists. split; [reflexivity|]. split; [|congruence]. intros m. split; [discriminate|]. intros H.
        destruct H as [body' b es B U M Fi|s es B K M Fi]; [now destruct (P' body')|]. apply V in K. discriminate.
Qed.

(* ---- calls ------------------------------------------------------------------------------- *)
Lemma listed_closes items : forall items' r r', items <> [] -> items' <> [] -> Forall item items -> Forall item items' ->
  listed items ++ 41 :: r = listed items' ++ 41 :: r' -> r = r'.
Proof.
  assert (G : forall n a its r, item (n, a) ->
    drop_while is_space32 (listed ((n, a) :: its) ++ 41 :: r) = a ++ (match its with [] => 41 :: r | _ => 44 :: listed its ++ 41 :: r end)).
  { intros n a its r [A B]. cbn [snd] in *. destruct its as [|it its].
    - cbn [listed]. rewrite <- app_assoc. apply drop_blanks. intros x. destruct a as [|c a]; [discriminate|]. intros X. injection X as -> _. now destruct (B a).
    - rewrite listed_cons by discriminate. rewrite <- !app_assoc. cbn [app]. apply drop_blanks. intros x.
      destruct a as [|c a]; [discriminate|]. intros X. injection X as -> _. now destruct (B a). }
  induction items as [|[n a] items IH]; intros items' r r' N N' F F' E; [congruence|]. destruct items' as [|[n' a'] items']; [congruence|].
  apply (f_equal (drop_while is_space32)) in E. apply Forall_cons_iff in F as [I F]. apply Forall_cons_iff in F' as [I' F'].
  rewrite !G in E by auto. destruct I as [I _], I' as [I' _]. cbn [snd] in *. apply (f_equal (fun x => scan_arg x 0 [])) in E.
  rewrite (scan_arg_over false a I), (scan_arg_over false a' I') in E by easy.
  destruct items as [|it items], items' as [|it' items']; cbn [scan_arg] in E;
    repeat (change (41 =? 92) with false in E; change (41 =? 40) with false in E; change (41 =? 41) with true in E;
            change (44 =? 92) with false in E; change (44 =? 40) with false in E; change (44 =? 41) with false in E;
            change ((44 =? 44) && Nat.eqb 0 0) with true in E); cbn iota in E.
  - now injection E.
  - now injection E.
  - now injection E.
  - injection E as _ E. apply (IH (it' :: items')); auto; discriminate.
Qed.
Lemma paren_split a b x y : ~ In 40 a -> ~ In 40 b -> a ++ 40 :: x = b ++ 40 :: y -> a = b /\ x = y.
Proof.
  intros A B E. apply (f_equal (fun s => split_at_paren s [])) in E. rewrite !split_paren_over in E by auto. cbn [rev app] in E. now injection E.
Qed.
Lemma call_closes fn items r fn' items' r' : items <> [] -> items' <> [] -> Forall item items -> Forall item items' -> ~ In 40 fn -> ~ In 40 fn' ->
  call fn items ++ r = call fn' items' ++ r' -> r = r'.
Proof.
  intros N N' F F' H H' E. unfold call in E. rewrite <- !app_assoc in E. cbn [app] in E. apply paren_split in E as [_ E]; auto.
  rewrite <- !app_assoc in E. cbn [app] in E. exact (listed_closes items items' r r' N N' F F' E).
Qed.
Lemma fn_called s name args : parse_fn s = Ok (Some (name, args)) -> called s name args.
Proof. intros H. apply parse_fn_sound in H as [Hn [items [rest [A [B [C D]]]]]]. exists items, rest. auto. Qed.
Lemma called_fn s name args : called s name args -> (length args <= 5)%nat -> parse_fn s = Ok (Some (name, args)).
Proof. intros [items [rest [A [B [C [-> ->]]]]]] L. now apply parse_fn_ok. Qed.
Lemma called_parens s name args : called s name args -> In 40 s /\ In 41 s.
Proof.
  intros [items [rest [_ [_ [_ [-> _]]]]]]. unfold call. split; apply in_or_app; left; apply in_or_app; right; [now left|]. right.
  apply in_or_app. right. now left.
Qed.
Lemma text_blanks n a : utf8_text (repeat 32 n ++ a) -> utf8_text a.
Proof. induction n as [|n IH]; cbn [repeat app]; auto. intros T. apply IH. apply (text_split 32 []) in T; [apply T|lia]. Qed.
Lemma listed_text items : forall r, items <> [] -> utf8_text (listed items ++ 41 :: r) -> Forall utf8_text (map snd items).
Proof.
  induction items as [|[n a] items IH]; intros r N T; [congruence|]. destruct items as [|it items].
  - cbn [listed] in T. rewrite <- app_assoc in T. apply text_blanks, text_split in T as [T _]; [|lia]. repeat constructor. exact T.
  - rewrite listed_cons in T by discriminate. rewrite <- !app_assoc in T. apply text_blanks in T. cbn [app] in T.
    apply text_split in T as [T1 T2]; [|lia]. constructor; [exact T1|]. eapply IH; [discriminate|exact T2].
Qed.
Lemma called_text s name args : called s name args -> utf8_text s -> Forall utf8_text args.
Proof.
  intros [items [rest [N [_ [_ [-> ->]]]]]] T. unfold call in T. rewrite <- !app_assoc in T. cbn [app] in T.
  apply text_split in T as [_ T]; [|lia]. rewrite <- app_assoc in T. cbn [app] in T. apply listed_text in T; auto.
  unfold given. rewrite Forall_forall in *. intros x I. apply filter_In in I as [I _]. auto.
Qed.
Lemma called_args s name args : called s name args -> balanced_args args.
Proof.
  intros [items [rest [N [F [_ [_ ->]]]]]]. apply Forall_forall. intros a I. apply given_in in I as [n [I Na]]. split; auto.
  rewrite Forall_forall in F. exact (F (n, a) I).
Qed.

(* ---- layers, arguments ------------------------------------------------------------------- *)
Lemma layer_index_complete n : forall ls i k l, nth_error ls k = Some l -> ly_name l = n ->
  (forall k' l', (k' < k)%nat -> nth_error ls k' = Some l' -> ly_name l' <> n) -> layer_index_from ls n i = Some (i + k)%nat.
Proof.
  induction ls as [|x ls IH]; intros i k l H E M; [destruct k; discriminate|]. cbn [layer_index_from]. destruct k as [|k].
  - injection H as ->. rewrite (proj2 (str_eqb_eq (ly_name l) n) E). f_equal. lia.
  - destruct (str_eqb (ly_name x) n) eqn:Q; [apply str_eqb_eq in Q; now destruct (M 0%nat x ltac:(lia) eq_refl)|].
    rewrite (IH (S i) k l); auto; [f_equal; lia|]. intros k' l' Hk. apply (M (S k')). lia.
Qed.
Lemma layer_of_iff c n i : config_get_layer_index c n = Some i <-> layer_of c n i.
Proof.
  split; [apply layer_of_index|]. intros [l [A [B C]]]. unfold config_get_layer_index. now apply (layer_index_complete n _ 0 i l).
Qed.
Lemma layer_of_layers c c' n i : c_layers c' = c_layers c -> layer_of c n i -> layer_of c' n i.
Proof. unfold layer_of. intros ->. auto. Qed.
(* names and types of the layers *)
Definition kinds (c : config) : list (str * ltype) := map (fun l => (ly_name l, ly_type l)) (c_layers c).
Lemma kinds_nth c c' i l : kinds c' = kinds c -> nth_error (c_layers c) i = Some l ->
  exists l', nth_error (c_layers c') i = Some l' /\ ly_name l' = ly_name l /\ ly_type l' = ly_type l.
Proof.
  unfold kinds. intros E H. apply (f_equal (fun x => nth_error x i)) in E. rewrite !nth_error_map, H in E.
  destruct (nth_error (c_layers c') i) as [l'|]; [|discriminate]. injection E as E1 E2. eauto.
Qed.
Lemma layer_of_kinds c c' n i : kinds c' = kinds c -> layer_of c n i -> layer_of c' n i.
Proof.
  intros E [l [A [B C]]]. destruct (kinds_nth c c' i l E A) as [l' [A' [B' _]]]. exists l'. split; auto. split; [congruence|].
  intros j m Hj M. destruct (kinds_nth c' c j m (eq_sym E) M) as [m' [M' [N' _]]]. specialize (C j m' Hj M'). congruence.
Qed.
Definition argm (c : config) (t : argt) (a : str) (v : argv) : Prop :=
  match t, v with
  | ALayer, VIdx i => layer_arg c a i
  | ALayout, VIdx i => layout_arg c a i
  | AMacro, VIdx j => macro_arg c a j
  | ADesc, VIdx j => exists d, nth_error (c_descs c) j = Some d /\ means c a d
  | ATimeout, VNum z => time_arg a z
  | ASens, VNum z => sens_arg a z
  | _, _ => False
  end.
(* arguments given by type and text *)
Definition argsm (c : config) : list (argt * str) -> list argv -> Prop := Forall2 (fun p => argm c (fst p) (snd p)).
Definition known (name : str) (o : op) (ts : list argt) : Prop := In (name, o, ts) actions.
Lemma find_in acts : forall name o ts, find_action acts name = Some (o, ts) -> In (name, o, ts) acts.
Proof.
  induction acts as [|[[n o'] ts'] acts IH]; intros name o ts; cbn [find_action]; [discriminate|]. destruct (str_eqb n name) eqn:E.
  - apply str_eqb_eq in E as ->. intros H. injection H as <- <-. now left.
  - intros H. right. auto.
Qed.
Lemma find_known name o ts : find_action actions name = Some (o, ts) <-> known name o ts.
Proof.
  split; [apply find_in|]. unfold known. intros H. unfold actions in H. cbn [In] in H.
  repeat match type of H with _ \/ _ => destruct H as [H|H] end; try contradiction; injection H as <- <- <-; reflexivity.
Qed.
Lemma call_args c name args d : call_means c name args d <->
  exists o ts vs, known name o ts /\ length args = length ts /\ argsm c (combine ts args) vs /\ d = build o vs.
Proof.
  split.
  - intros H.
    Ltac act := unfold known, actions; cbn [In]; repeat first [left; reflexivity | right].
    Ltac pick o ts vs := exists o, ts, vs; split; [solve [act]|]; split; [reflexivity|]; split; [|reflexivity]; unfold argsm; cbn [combine]; repeat apply Forall2_cons; try apply Forall2_nil; cbn [argm fst snd]; eauto.
    destruct H; repeat match goal with H : ?n = _ \/ ?n = _ |- _ => destruct H; subst n end.
    + pick OpLayer [ALayer] [VIdx i].
    + pick OpLayerM [ALayer; AMacro] [VIdx i; VIdx j].
    + pick OpOneshot [ALayer] [VIdx i].
    + pick OpOneshotM [ALayer; AMacro] [VIdx i; VIdx j].
    + pick OpToggle [ALayer] [VIdx i].
    + pick OpToggleM [ALayer; AMacro] [VIdx i; VIdx j].
    + pick OpToggleM [ALayer; AMacro] [VIdx i; VIdx j].
    + pick OpSwap [ALayer] [VIdx i].
    + pick OpSwapM [ALayer; AMacro] [VIdx i; VIdx j].
    + pick OpSwapM [ALayer; AMacro] [VIdx i; VIdx j].
    + pick OpClear (@nil argt) (@nil argv).
    + pick OpClearM [AMacro] [VIdx j].
    + pick OpLayout [ALayout] [VIdx i].
    + pick OpOverload [ALayer; ADesc] [VIdx i; VIdx j].
    + pick OpOverloadT [ALayer; ADesc; ATimeout] [VIdx i; VIdx j; VNum tv].
    + pick OpOverloadT [ALayer; ADesc; ATimeout] [VIdx i; VIdx j; VNum tv].
    + pick OpOverloadT2 [ALayer; ADesc; ATimeout] [VIdx i; VIdx j; VNum tv].
    + pick OpOverloadT2 [ALayer; ADesc; ATimeout] [VIdx i; VIdx j; VNum tv].
    + pick OpOverloadI [ADesc; ADesc; ATimeout] [VIdx j; VIdx j'; VNum tv].
    + pick OpTimeout [ADesc; ATimeout; ADesc] [VIdx j; VNum tv; VIdx j'].
    + pick OpMacro2 [ATimeout; ATimeout; AMacro] [VNum tv; VNum rv; VIdx j].
    + pick OpScroll [ASens] [VNum v].
    + pick OpScrollT [ASens] [VNum v].
  - intros [o [ts [vs [K [L [F ->]]]]]]. unfold known, actions in K. cbn [In] in K.
    repeat match type of K with _ \/ _ => destruct K as [K|K] end; try contradiction; injection K as <- <- <-; cbn [length] in L;
    repeat match goal with
    | H : length ?l = O |- _ => destruct l; [clear H|discriminate H]
    | H : length ?l = S _ |- _ => destruct l; [discriminate H|cbn [length] in H; apply Nat.succ_inj in H]
    end; cbn [combine] in F;
    repeat match goal with
    | H : argsm _ [] _ |- _ => inversion H; clear H; subst
    | H : argsm _ (_ :: _) _ |- _ => inversion H; clear H; subst
    | H : Forall2 _ [] _ |- _ => inversion H; clear H; subst
    | H : Forall2 _ (_ :: _) _ |- _ => inversion H; clear H; subst
    end;
    repeat match goal with H : argm _ _ _ ?v |- _ => destruct v; cbn [argm fst snd] in H; try contradiction end;
    repeat match goal with H : exists _, _ |- _ => let d := fresh "d" in destruct H as [d [? ?]] end;
    cbn [build]; econstructor; eauto; fail.
Qed.

(* ---- larger tables ----------------------------------------------------------------------- *)
Definition wider (c c' : config) : Prop := kinds c' = kinds c /\ tables_extended c c'.
Lemma grows_wider c c' : grows c c' -> wider c c'.
Proof. intros [ds [ms [ks ->]]]. split; [reflexivity|]. split; [|split]; cbn; eauto. Qed.
Lemma nth_ext {A} (l x : list A) i a : nth_error l i = Some a -> nth_error (l ++ x) i = Some a.
Proof. intros H. rewrite nth_error_app1; auto. apply nth_error_Some. congruence. Qed.
Scheme means_ind2 := Induction for means Sort Prop with call_means_ind2 := Induction for call_means Sort Prop.
Lemma layer_arg_wider c c' a i : wider c c' -> layer_arg c a i -> layer_arg c' a i.
Proof.
  intros [E _] [H1 [H2 [l [H3 H4]]]]. split; auto. split; [now apply (layer_of_kinds c)|].
  destruct (kinds_nth c c' i l E H3) as [l' [A [_ B]]]. exists l'. split; [auto|congruence].
Qed.
Lemma layout_arg_wider c c' a i : wider c c' -> layout_arg c a i -> layout_arg c' a i.
Proof.
  intros [E _] [H1 H2]. split; [now apply (layer_of_kinds c)|]. destruct H2 as [H2|[l [H3 H4]]]; [now left|right].
  destruct (kinds_nth c c' i l E H3) as [l' [A [_ B]]]. exists l'. split; [auto|congruence].
Qed.
Lemma macro_arg_wider c c' a i : wider c c' -> macro_arg c a i -> macro_arg c' a i.
Proof. intros [_ [_ [[x E] _]]] [m [H1 H2]]. exists m. split; auto. rewrite E. now apply nth_ext. Qed.
Lemma desc_wider c c' j d : wider c c' -> nth_error (c_descs c) j = Some d -> nth_error (c_descs c') j = Some d.
Proof. intros [_ [[x E] _]] H. rewrite E. now apply nth_ext. Qed.
Lemma means_wider c c' s d : wider c c' -> means c s d -> means c' s d.
Proof.
  intros W H. pose proof W as [E [_ [[xm Em] [xk Ek]]]].
  induction H using means_ind2 with (P0 := fun name args d _ => call_means c' name args d);
    try solve [econstructor; eauto using layer_arg_wider, layout_arg_wider, macro_arg_wider, desc_wider].
  - eapply means_modifier; eauto. now apply (layer_of_kinds c).
  - eapply means_command; eauto. rewrite Ek. now apply nth_ext.
  - eapply means_macro; eauto. rewrite Em. now apply nth_ext.
Qed.
Lemma argm_wider c c' t a v : wider c c' -> argm c t a v -> argm c' t a v.
Proof.
  intros W H. destruct t, v; cbn [argm] in *; auto; eauto using layer_arg_wider, layout_arg_wider, macro_arg_wider.
  destruct H as [d [H1 H2]]. exists d. split; [eapply desc_wider|eapply means_wider]; eauto.
Qed.

(* ---- soundness --------------------------------------------------------------------------- *)
Lemma modifier_iff code ln : mod_layer_name code = Some ln <-> In (code, ln) modifier_layers.
Proof.
  unfold mod_layer_name, modifier_layers, K_LEFTSHIFT, K_LEFTCTRL, K_LEFTMETA, K_LEFTALT, K_RIGHTALT. cbn [In]. split.
  - destruct (N.eqb_spec code 42) as [->|]; [intros H; injection H as <-; tauto|].
    destruct (N.eqb_spec code 29) as [->|]; [intros H; injection H as <-; tauto|].
    destruct (N.eqb_spec code 125) as [->|]; [intros H; injection H as <-; tauto|].
    destruct (N.eqb_spec code 56) as [->|]; [intros H; injection H as <-; tauto|].
    destruct (N.eqb_spec code 100) as [->|]; [intros H; injection H as <-; tauto|]. discriminate.
  - intros H. repeat destruct H as [H|H]; try contradiction; injection H as <- <-; reflexivity.
Qed.
Lemma layer_type_nth c i l : nth_error (c_layers c) i = Some l -> layer_type_at c i = ly_type l.
Proof. intros H. unfold layer_type_at. now rewrite (nth_error_nth _ _ _ H). Qed.
Lemma simple_sound c t a c' v : t <> ADesc -> utf8_text a -> parse_simple_arg c t a = Ok (c', Some v) -> argm c' t a v.
Proof.
  intros Ht T H. destruct t; cbn [parse_simple_arg] in H; try congruence.
  - destruct (Nat.leb _ _); [discriminate|]. destruct (macro_expr_ok a T) as [r [E [X _]]]. rewrite E in H. cbn [bind] in H.
    destruct r as [| |m]; try discriminate. apply Ok_inj in H. injection H as <- <-. cbn [argm]. exists m.
    split; [|now apply X]. cbn [c_macros set_c_macros]. rewrite nth_error_app2, Nat.sub_diag by lia. reflexivity.
  - destruct (str_eqb a _) eqn:Q; [discriminate|]. destruct (config_get_layer_index c a) as [i|] eqn:E; [|discriminate].
    destruct (is_layout _) eqn:Y; [discriminate|]. apply Ok_inj in H. injection H as <- <-. cbn [argm]. apply layer_of_iff in E.
    split; [intros ->; now rewrite str_eqb_refl in Q|]. split; auto. destruct E as [l [E _]]. exists l. split; auto.
    rewrite (layer_type_nth _ _ _ E) in Y. intros Z. rewrite Z in Y. discriminate.
  - destruct (config_get_layer_index c a) as [i|] eqn:E; [|discriminate]. destruct (_ && _) eqn:Y; [discriminate|].
    apply Ok_inj in H. injection H as <- <-. cbn [argm]. apply layer_of_iff in E. split; auto. destruct E as [l [E _]].
    rewrite (layer_type_nth _ _ _ E) in Y. destruct (Nat.eqb_spec i 0); [now left|right]. exists l. split; auto.
    cbn [negb andb] in Y. apply negb_false_iff in Y. now apply is_layout_spec.
  - apply Ok_inj in H. injection H as <- <-. cbn [argm]. exists (atoi a). split; auto. now apply number_iff.
  - apply Ok_inj in H. injection H as <- <-. cbn [argm]. exists (atoi a). split; auto. now apply number_iff.
Qed.
Section Sound.
Variable pd : config -> str -> res (config * option desc).
Hypothesis Hpd : forall c s c' d, utf8_text s -> pd c s = Ok (c', Some d) -> means c' s d.
Hypothesis Hg : forall c s c' o, pd c s = Ok (c', o) -> grows c c'.
Lemma arg_sound c t a c' v : utf8_text a -> parse_arg pd c t a = Ok (c', Some v) -> argm c' t a v.
Proof.
  intros T H. destruct t; cbn [parse_arg] in H; try (eapply simple_sound; eauto; discriminate).
  bstep H r E. destruct r as [c1 [d|]]; [|discriminate]. destruct (N.leb _ _); [discriminate|]. apply Ok_inj in H. injection H as <- <-.
  cbn [argm]. exists d. cbn [c_descs set_c_descs]. split; [rewrite nth_error_app2, Nat.sub_diag by lia; reflexivity|].
  eapply means_wider; [apply grows_wider, grows_desc|]. eauto.
Qed.
Lemma args_sound ts : Forall (fun p => utf8_text (snd p)) ts -> forall c vals c' out, parse_args pd ts c vals = Ok (c', Some out) ->
  exists vs, out = rev vs ++ vals /\ argsm c' ts vs.
Proof.
  induction ts as [|[t a] ts IH]; intros F c vals c' out H; cbn [parse_args] in H.
  - apply Ok_inj in H. injection H as <- <-. exists []. split; auto. constructor.
  - inversion F; subst. bstep H r E. destruct r as [c1 [v|]]; [|discriminate]. destruct (IH H3 _ _ _ _ H) as [vs [-> A]].
    exists (v :: vs). cbn [rev]. split; [now rewrite <- app_assoc|]. constructor; auto. cbn [fst snd] in *.
    eapply argm_wider; [apply grows_wider, (parse_args_grows pd Hg ts _ _ _ _ H)|]. eapply arg_sound; eauto.
Qed.
Lemma Forall2_rev {A B} (R : A -> B -> Prop) l m : Forall2 R l m -> Forall2 R (rev l) (rev m).
Proof. induction 1; cbn [rev]; [constructor|]. apply Forall2_app; auto. Qed.
Lemma call_sound c name args c' d : Forall utf8_text args -> parse_call pd c name args = Ok (c', Some d) -> call_means c' name args d.
Proof.
  intros T H. unfold parse_call in H. destruct (find_action actions name) as [[o ts]|] eqn:E; [|discriminate].
  destruct (Nat.eqb_spec (length args) (length ts)) as [L|L]; [|discriminate]. cbn [negb] in H. bstep H r Er. destruct r as [c1 [vs|]]; [|discriminate].
  apply Ok_inj in H. injection H as <- <-. apply call_args. apply args_sound in Er as [vs' [-> A]].
  - exists o, ts, (rev vs'). split; [now apply find_known|]. split; auto. split; [|now rewrite app_nil_r].
    rewrite <- (rev_involutive (combine ts args)). now apply Forall2_rev.
  - apply Forall_rev. apply Forall_forall. intros [t a] I. apply in_combine_r in I. rewrite Forall_forall in T. now apply T.
Qed.
End Sound.
Lemma ov_item a0 a1 a3 : balanced_args [a0; a1; a3] -> item (1%nat, ov_text a0 a1 a3).
Proof.
  intros B. repeat (apply Forall_cons_iff in B as [[? ?] B]). apply item_app_call.
  - vm_compute. repeat constructor; discriminate.
  - discriminate.
  - apply Forall_cons; [exact H|]. apply Forall_cons; [exact H1|]. apply Forall_cons; [exact H3|]. constructor.
  - discriminate.
Qed.
Lemma ov_name : ~ In 40 (bs "overloadi").
Proof. vm_compute. intros X. repeat destruct X as [X|X]; try discriminate X. exact X. Qed.
Lemma letter_items a0 a1 a2 a3 : balanced_args [a0; a1; a2; a3] -> Forall item [(0%nat, a1); (1%nat, ov_text a0 a1 a3); (1%nat, a2)].
Proof.
  intros B. pose proof B as B0. repeat (apply Forall_cons_iff in B as [[? ?] B]).
  apply Forall_cons; [exact H1|]. apply Forall_cons; [|apply Forall_cons; [exact H3|constructor]].
  apply ov_item. repeat (apply Forall_cons; [split; assumption|]). constructor.
Qed.
Lemma letter_short a0 a1 a2 a3 o : balanced_args [a0; a1; a2; a3] -> parse_fn (lettermod_text a0 a1 a2 a3) = Ok (Some o) ->
  N.of_nat (length (call (bs "overloadi") [(0%nat, a1); (1%nat, ov_text a0 a1 a3); (1%nat, a2)])) < 1024
  /\ o = (bs "overloadi", [a1; ov_text a0 a1 a3; a2]).
Proof.
  intros B H. destruct o as [fn args]. rewrite lettermod_text_eq in H. set (L := call (bs "overloadi") _) in *.
  destruct (N.lt_ge_cases (N.of_nat (length L)) 1024) as [S|S].
  - split; auto. rewrite firstn_all2 in H by lia. unfold L in H. rewrite lettermod_full in H by auto. now injection H as <- <-.
  - exfalso. pose proof H as H0. apply parse_fn_sound in H as [Hn [items [rest [Ne [F [E _]]]]]].
    assert (X : call fn items ++ (rest ++ skipn (Z.to_nat 1023) L) = L ++ []).
    { rewrite app_assoc, <- E, firstn_skipn. now rewrite app_nil_r. }
    unfold L in X at 2. apply call_closes in X; auto; try discriminate; [|now apply letter_items|apply ov_name].
    apply app_eq_nil in X as [_ X]. apply (f_equal (fun l => length l)) in X. rewrite skipn_length in X. cbn [length] in X. lia.
Qed.
Lemma bs_text_ov : forall s, Forall (fun c => 0 < c < 128) s -> utf8_text s.
Proof. induction 1; [apply text_nil|]. now apply text_cons. Qed.
Lemma ov_utf8 a0 a1 a3 : utf8_text a0 -> utf8_text a1 -> utf8_text a3 -> utf8_text (ov_text a0 a1 a3).
Proof.
  intros H0 H1 H3. unfold ov_text, ov_items, call. cbn [listed repeat]. repeat apply text_app; auto; try (apply bs_text_ov; repeat constructor; lia).
  apply text_cons; [lia|]. cbn [app]. apply text_app; auto; [|apply bs_text_ov; repeat constructor; lia].
  apply text_app; auto. repeat (apply text_cons; [lia|]). apply text_app; auto. repeat (apply text_cons; [lia|]). auto.
Qed.
Lemma resolve_sound s name args : utf8_text s -> resolve s = Ok (Some (name, args)) -> Forall utf8_text args
  /\ (called s name args /\ name <> bs "lettermod"
      \/ exists l k idle hold, called s (bs "lettermod") [l; k; idle; hold]
         /\ N.of_nat (length (call (bs "overloadi") [(0%nat, k); (1%nat, ov_text l k hold); (1%nat, idle)])) < 1024
         /\ name = bs "overloadi" /\ args = [k; ov_text l k hold; idle]).
Proof.
  intros T H. unfold resolve in H. bstep H o E. destruct o as [[fn fargs]|]; [|discriminate]. apply fn_called in E.
  pose proof (called_text _ _ _ E T) as Ta. destruct (str_eqb fn (bs "lettermod")) eqn:Q.
  - apply str_eqb_eq in Q as ->. destruct fargs as [|a0 [|a1 [|a2 [|a3 [|]]]]]; try discriminate.
    pose proof (called_args _ _ _ E) as B. apply letter_short in H as [S H]; auto. injection H as -> ->.
    apply Forall_cons_iff in Ta as [T0 Ta]. apply Forall_cons_iff in Ta as [T1 Ta]. apply Forall_cons_iff in Ta as [T2 Ta]. apply Forall_cons_iff in Ta as [T3 _].
    split; [repeat constructor; auto; now apply ov_utf8|]. right. exists a0, a1, a2, a3. auto.
  - apply Ok_inj in H. injection H as <- <-. split; auto. left. split; auto. intros ->. now rewrite str_eqb_refl in Q.
Qed.
Lemma body_sound pd c s c' d : (forall c s c' d, utf8_text s -> pd c s = Ok (c', Some d) -> means c' s d) ->
  (forall c s c' o, pd c s = Ok (c', o) -> grows c c') ->
  utf8_text s -> parse_body pd c s = Ok (c', Some d) -> means c' s d.
Proof.
  intros Hpd Hg T H. rewrite body_resolve in H. destruct s as [|x s'].
  { apply Ok_inj in H. injection H as <- <-. constructor. }
  remember (x :: s') as s eqn:Es. clear Es x s'. destruct (parse_key_sequence s) as [[code m]|] eqn:K.
  - apply key_parses in K. destruct (mod_layer_name code) as [ln|] eqn:M.
    + destruct (config_get_layer_index c ln) as [i|] eqn:E; [|discriminate]. apply Ok_inj in H. injection H as <- <-.
      apply modifier_iff in M. apply layer_of_iff in E. eapply means_modifier; eauto.
    + apply Ok_inj in H. injection H as <- <-. eapply means_key; eauto. intros ln X. apply modifier_iff in X. congruence.
  - apply not_key in K. destruct (parse_command s) as [| |cmd] eqn:C.
    + destruct (macro_expr_ok s T) as [r [E [X _]]]. rewrite E in H. cbn [bind] in H. destruct r as [| |m].
      * bstep H o Eo. destruct o as [[fn args]|]; [|discriminate]. apply resolve_sound in Eo as [Ta [[Cl Nl]|[l [k [idle [hold [Cl [S [-> ->]]]]]]]]]; auto.
        -- eapply means_call; eauto. eapply call_sound; eauto.
        -- eapply means_lettermod; eauto. eapply call_sound; eauto.
      * discriminate.
      * destruct (Nat.leb _ _); [discriminate|]. apply Ok_inj in H. injection H as <- <-. eapply means_macro; eauto; [now apply X|].
        cbn [c_macros set_c_macros]. rewrite nth_error_app2, Nat.sub_diag by lia. reflexivity.
    + discriminate.
    + destruct (Nat.leb _ _); [discriminate|]. apply Ok_inj in H. injection H as <- <-. apply command_iff in C. eapply means_command; eauto.
      cbn [c_cmds set_c_cmds]. rewrite nth_error_app2, Nat.sub_diag by lia. reflexivity.
Qed.
Lemma desc_sound : forall f c s c' d, utf8_text s -> parse_desc f c s = Ok (c', Some d) -> means c' s d.
Proof.
  induction f as [|f IH]; intros c s c' d T H; [discriminate|]. rewrite parse_desc_S in H. eapply body_sound; eauto.
  intros. eapply parse_desc_grows; eauto.
Qed.

(* ---- completeness ------------------------------------------------------------------------ *)
(* reading ends, and only for want of space without a result *)
Definition reads {A} (r : res (config * option A)) : Prop := r <> NoFuel -> exists c' o, r = Ok (c', o) /\ (o = None -> table_full c').
Lemma simple_reads c c0 t a v : t <> ADesc -> utf8_text a -> c_layers c0 = c_layers c -> argm c0 t a v -> reads (parse_simple_arg c t a).
Proof.
  intros Ht T L H _. destruct t, v; cbn [argm] in H; try contradiction; try congruence; cbn [parse_simple_arg].
  - destruct (Nat.leb_spec 256 (length (c_macros c))) as [G|G].
    + exists c, None. split; auto. intros _. right; left. lia.
    + destruct H as [m [_ M]]. destruct (macro_expr_ok a T) as [r [E [X _]]]. rewrite E. cbn [bind]. apply X in M. rewrite M. eexists _, (Some _). split; [reflexivity|discriminate].
  - destruct H as [N [O [l [E Y]]]]. destruct (str_eqb a _) eqn:Q; [apply str_eqb_eq in Q; contradiction|].
    pose proof (layer_of_layers c0 c a i (eq_sym L) O) as O'. apply layer_of_iff in O'. rewrite O'. rewrite L in E.
    rewrite (layer_type_nth _ _ _ E). destruct (is_layout (ly_type l)) eqn:Z; [apply is_layout_spec in Z; contradiction|].
    eexists _, (Some _). split; [reflexivity|discriminate].
  - destruct H as [O Y]. pose proof (layer_of_layers c0 c a i (eq_sym L) O) as O'. apply layer_of_iff in O'. rewrite O'.
    replace (negb (Nat.eqb i 0) && negb (is_layout (layer_type_at c i))) with false; [eexists _, (Some _); split; [reflexivity|discriminate]|].
    symmetry. destruct Y as [->|[l [E Y]]]; [reflexivity|]. rewrite L in E. rewrite (layer_type_nth _ _ _ E), Y. cbn. now rewrite andb_false_r.
  - eexists _, (Some _). split; [reflexivity|discriminate].
  - eexists _, (Some _). split; [reflexivity|discriminate].
Qed.
Section Complete.
Variable pd : config -> str -> res (config * option desc).
Hypothesis Hpd : forall c c0 s d, utf8_text s -> c_layers c0 = c_layers c -> means c0 s d -> reads (pd c s).
Hypothesis Hg : forall c s c' o, pd c s = Ok (c', o) -> grows c c'.
Lemma arg_reads c c0 t a v : utf8_text a -> c_layers c0 = c_layers c -> argm c0 t a v -> reads (parse_arg pd c t a).
Proof.
  intros T L H. destruct t; cbn [parse_arg]; try (eapply simple_reads; eauto; discriminate).
  destruct v; cbn [argm] in H; [|contradiction]. destruct H as [d [_ M]]. intros NF.
  destruct (Hpd c c0 a d T L M) as [c1 [o [E X]]]; [intros Z; apply NF; now rewrite Z|]. rewrite E. cbn [bind]. destruct o as [d'|].
  - destruct (N.leb_spec 1024 (N.of_nat (length (c_descs c1)))).
    + exists c1, None. split; auto. intros _. now left.
    + eexists _, (Some _). split; [reflexivity|discriminate].
  - exists c1, None. auto.
Qed.
Lemma args_reads c0 ts : Forall (fun p => utf8_text (snd p)) ts -> forall vs, argsm c0 ts vs -> forall c vals, c_layers c0 = c_layers c ->
  reads (parse_args pd ts c vals).
Proof.
  induction ts as [|[t a] ts IH]; intros F vs A c vals L NF; cbn [parse_args] in *.
  - eexists _, (Some _). split; [reflexivity|discriminate].
  - inversion F; subst. inversion A; subst. cbn [fst snd] in *.
    destruct (arg_reads c c0 t a y H1 L H3) as [c1 [o [E X]]]; [intros Z; apply NF; now rewrite Z|]. rewrite E in *. cbn [bind] in *.
    destruct o as [v|]; [|exists c1, None; auto]. eapply IH; eauto.
    apply (parse_arg_grows pd Hg) in E. apply grows_layers in E as [E _]. congruence.
Qed.
Lemma call_reads c c0 name args d : Forall utf8_text args -> c_layers c0 = c_layers c -> call_means c0 name args d -> reads (parse_call pd c name args).
Proof.
  intros T L H NF. apply call_args in H as [o [ts [vs [K [Hl [A _]]]]]]. unfold parse_call in *. apply find_known in K. rewrite K in *.
  rewrite Hl, Nat.eqb_refl in *. cbn [negb] in *.
  destruct (args_reads c0 (rev (combine ts args))) with (vs := rev vs) (c := c) (vals := @nil argv) as [c1 [r [E X]]]; auto.
  - apply Forall_rev. apply Forall_forall. intros [t a] I. apply in_combine_r in I. rewrite Forall_forall in T. now apply T.
  - now apply Forall2_rev.
  - intros Z. apply NF. now rewrite Z.
  - rewrite E. cbn [bind]. eexists _, _. split; [reflexivity|]. destruct r; auto. discriminate.
Qed.
End Complete.
Lemma known_plain name o ts : known name o ts -> name <> bs "command" /\ name <> bs "macro" /\ name <> bs "lettermod" /\ (length ts <= 5)%nat.
Proof.
  unfold known, actions. cbn [In]. intros H. repeat match type of H with _ \/ _ => destruct H as [H|H] end; try contradiction; injection H as <- <- <-;
    (split; [discriminate|]); (split; [discriminate|]); (split; [discriminate|]); cbn; lia.
Qed.
Lemma called_not_key s name args : called s name args -> ~ is_key s.
Proof. intros H K. apply called_parens in H as [A B]. eapply key_parens; eauto. Qed.
Lemma called_prefix s name args p r : called s name args -> s = p ++ 40 :: r -> ~ In 40 p -> name = p.
Proof.
  intros [items [rest [_ [_ [Hn [-> _]]]]]] E Hp. unfold call in E. rewrite <- !app_assoc in E. cbn [app] in E. now apply paren_split in E as [E _].
Qed.
Ltac not_in := vm_compute; let X := fresh in intros X; repeat destruct X as [X|X]; try discriminate X; exact X.
Lemma called_not_command s name args : called s name args -> name <> bs "command" -> parse_command s = PInvalid.
Proof.
  intros H N. destruct (parse_command s) eqn:E; auto; exfalso; apply N.
  - destruct (command_shape s) as [body B]; [congruence|]. apply (called_prefix s name args _ (body ++ [41]) H); [exact B|not_in].
  - destruct (command_shape s) as [body B]; [congruence|]. apply (called_prefix s name args _ (body ++ [41]) H); [exact B|not_in].
Qed.
Lemma called_not_macro s name args : called s name args -> utf8_text s -> name <> bs "macro" -> parse_macro_expression s = Ok PInvalid.
Proof.
  intros H T N. destruct (macro_expr_ok s T) as [r [E [_ Y]]]. rewrite E. f_equal. destruct r; auto; exfalso;
  (destruct Y as [[body B]|[cp [S B]]]; [eapply called_not_key; eauto|discriminate| |];
   [apply N; apply (called_prefix s name args _ (body ++ [41]) H); [exact B|not_in]|]).
  - apply called_parens in H as [H1 H2]. rewrite B in *. destruct (N.lt_ge_cases cp 128) as [L|L].
    + rewrite utf8_low in * by auto. destruct H1 as [->|[]]. destruct H2 as [H2|[]]. discriminate.
    + pose proof (utf8_high cp 40 S L H1). lia.
  - apply called_parens in H as [H1 H2]. rewrite B in *. destruct (N.lt_ge_cases cp 128) as [L|L].
    + rewrite utf8_low in * by auto. destruct H1 as [->|[]]. destruct H2 as [H2|[]]. discriminate.
    + pose proof (utf8_high cp 40 S L H1). lia.
Qed.
Lemma called_nonempty s name args : called s name args -> s <> [].
Proof. intros H ->. apply called_parens in H as [[] _]. Qed.
Lemma body_call pd c s name args : called s name args -> utf8_text s -> name <> bs "command" -> name <> bs "macro" ->
  parse_body pd c s = (o <- resolve s ;; match o with None => Ok (c, None) | Some (fn, args) => parse_call pd c fn args end).
Proof.
  intros H T N1 N2. rewrite body_resolve. pose proof (called_nonempty _ _ _ H) as NE. destruct s as [|x s']; [congruence|].
  rewrite (proj2 (not_key _) (called_not_key _ _ _ H)), (called_not_command _ _ _ H N1), (called_not_macro _ _ _ H T N2). reflexivity.
Qed.
Lemma body_complete pd c c0 s d : (forall c c0 s d, utf8_text s -> c_layers c0 = c_layers c -> means c0 s d -> reads (pd c s)) ->
  (forall c s c' o, pd c s = Ok (c', o) -> grows c c') ->
  utf8_text s -> c_layers c0 = c_layers c -> means c0 s d -> reads (parse_body pd c s).
Proof.
  intros Hpd Hg T L H. destruct H as [|s code m K M|s code m ln i K M O|s cmd i C O|s m i K M O|s name args d H C|s l k idle hold d H inner S C].
  - intros _. eexists _, (Some _). split; [reflexivity|discriminate].
  - intros _. rewrite body_resolve. destruct s as [|x s']; [eexists _, (Some _); split; [reflexivity|discriminate]|].
    apply key_parses in K. rewrite K. destruct (mod_layer_name code) as [ln|] eqn:Q; [apply modifier_iff in Q; destruct (M _ Q)|].
    eexists _, (Some _). split; [reflexivity|discriminate].
  - intros _. rewrite body_resolve. destruct s as [|x s']; [eexists _, (Some _); split; [reflexivity|discriminate]|].
    apply key_parses in K. apply modifier_iff in M. pose proof (layer_of_layers c0 c ln i (eq_sym L) O) as O'. apply layer_of_iff in O'.
    rewrite K, M, O'. eexists _, (Some _). split; [reflexivity|discriminate].
  - intros _. rewrite body_resolve. assert (NK : ~ is_key s).
    { destruct C as [body [-> _]]. intros K. eapply key_parens; [exact K| |]; apply in_or_app; [left; vm_compute; tauto|right; apply in_or_app; right; now left]. }
    apply command_iff in C. destruct s as [|x s']; [discriminate|]. rewrite (proj2 (not_key _) NK), C.
    destruct (Nat.leb_spec 64 (length (c_cmds c))).
    + exists c, None. split; auto. intros _. right; right. lia.
    + eexists _, (Some _). split; [reflexivity|discriminate].
  - intros _. rewrite body_resolve.
    assert (C : parse_command s = PInvalid).
    { destruct (parse_command s) eqn:E; auto; exfalso; (destruct (command_shape s) as [body B]; [congruence|]);
      (destruct M as [b' b es Hb U Mt Fi|s es Hb KK Mt Fi]; [discriminate B|]; destruct KK as [KK|[cp [S Hc]]]; [contradiction|];
       pose proof (utf8_max cp) as Q; rewrite <- Hc, B, !app_length in Q; cbn [length] in Q; change (length (bs "command(")) with 8%nat in Q; lia). }
    destruct (macro_expr_ok s T) as [r [E [X _]]]. apply X in M. subst r. destruct s as [|x s']; [discriminate|].
    rewrite (proj2 (not_key _) K), C, E. cbn [bind]. destruct (Nat.leb_spec 256 (length (c_macros c))).
    + exists c, None. split; auto. intros _. right; left. lia.
    + eexists _, (Some _). split; [reflexivity|discriminate].
  - pose proof C as C0. apply call_args in C0 as [o [ts [vs [Kn [Hl _]]]]]. apply known_plain in Kn as [N1 [N2 [N3 N4]]].
    rewrite (body_call pd c s name args H T N1 N2). unfold resolve. rewrite (called_fn _ _ _ H) by lia. cbn [bind].
    destruct (str_eqb name (bs "lettermod")) eqn:Q; [apply str_eqb_eq in Q; contradiction|]. cbn [bind].
    eapply call_reads; eauto. eapply called_text; eauto.
  - rewrite (body_call pd c s _ _ H T) by discriminate. unfold resolve. rewrite (called_fn _ _ _ H) by (cbn; lia). cbn [bind].
    change (str_eqb (bs "lettermod") (bs "lettermod")) with true. cbn iota.
    pose proof (called_args _ _ _ H) as B. pose proof (called_text _ _ _ H T) as Ta. rewrite lettermod_text_eq, firstn_all2.
    + rewrite lettermod_full by auto. cbn [bind].
      apply Forall_cons_iff in Ta as [T0 Ta]. apply Forall_cons_iff in Ta as [T1 Ta]. apply Forall_cons_iff in Ta as [T2 Ta]. apply Forall_cons_iff in Ta as [T3 _].
      eapply call_reads; [exact Hpd|exact Hg| |exact L|exact C]. repeat (apply Forall_cons; [first [assumption | now apply ov_utf8]|]); constructor.
    + unfold inner in S. fold (ov_items l k hold) in S. fold (ov_text l k hold) in S. lia.
Qed.
Lemma desc_complete : forall f c c0 s d, utf8_text s -> c_layers c0 = c_layers c -> means c0 s d -> reads (parse_desc f c s).
Proof.
  induction f as [|f IH]; intros c c0 s d T L H; [intros NF; now destruct NF|]. rewrite parse_desc_S. eapply body_complete; eauto.
  intros. eapply parse_desc_grows; eauto.
Qed.
(* the same with layers that only agree in names and types *)
Lemma desc_complete_kinds f c c0 s d : utf8_text s -> kinds c0 = kinds c -> means c0 s d -> reads (parse_desc f c s).
Proof.
  intros T E M. apply (desc_complete f c (set_c_layers (c_layers c) c0) s d T); [reflexivity|]. eapply means_wider; [|exact M].
  split; [symmetry; exact E|]. split; [exists []; cbn; now rewrite app_nil_r|]. split; exists []; cbn; now rewrite app_nil_r.
Qed.
