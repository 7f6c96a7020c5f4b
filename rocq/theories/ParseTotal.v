(* Parsing ends, and does not abort on texts without the known dangers. *)
From Coq Require Import String Lia.
From Verif Require Import Base Lib KeyTable Keys Types Str MacroParse Ini Config SpecText TextProofs ParseWf ParseFrame.
Local Open Scope list_scope.
Local Notation length := List.length.

Definition unless (X : bool) (P : Prop) : Prop := X = true \/ P.
Lemma unless_imp X (P Q : Prop) : (P -> Q) -> unless X P -> unless X Q.
Proof. unfold unless. tauto. Qed.

Lemma parse_kvp_value s k v : parse_kvp s = (k, Some v) -> exists x, s = x ++ v.
Proof.
  intros H. destruct (entry_total s) as [e He]. rewrite (entry_ok _ _ He) in H. subst e. inversion He. subst.
  exists (k ++ b1 ++ 61%N :: b2). rewrite <- app_assoc. f_equal. rewrite <- app_assoc. reflexivity.
Qed.
Lemma split_entry_sub exp l s : split_entry exp = (l, s) -> exists x, exp = x ++ s.
Proof.
  unfold split_entry. intros H. destruct (find_char 46 exp 0) as [[|d]|]; try (injection H as _ <-; now exists []).
  destruct (match find_char 40 exp 0 with Some p => _ | None => _ end).
  - injection H as _ <-. exists (firstn (S (S d)) exp). symmetry. apply firstn_skipn.
  - injection H as _ <-. now exists [].
Qed.
Lemma add_entry_within X c exp : unless X (has_mods c) -> clean X exp -> within X (config_add_entry c exp).
Proof.
  intros M C. rewrite add_entry_unfold. destruct (N.leb _ _); [exact Logic.I|].
  destruct (split_entry exp) as [l s] eqn:Es. apply split_entry_sub in Es as [x Ex].
  destruct (parse_kvp s) as [k v] eqn:Ek. destruct (config_get_layer_index c l); [|exact Logic.I].
  apply within_bind.
  - destruct v as [v|]; [|exact Logic.I]. apply parse_kvp_value in Ek as [y Ey]. unfold parse_descriptor.
    apply desc_within; [lia|easy|]. apply (clean_sub X (x ++ y) v []). rewrite app_nil_r, <- app_assoc, <- Ey, <- Ex. exact C.
  - intros [c1 [d|]] _; [|exact Logic.I]. destruct (set_layer_entry _ _ _ _); exact Logic.I.
Qed.

(* ---- layers ------------------------------------------------------------------------ *)
Definition count (x : N) (s : str) : nat := count_occ N.eq_dec s x.
Lemma tokens_count d : forall s cur, length (tokens_from d s cur) <= count d s + (match cur with [] => 1 | _ => 1 end).
Proof.
  induction s as [|x s IH]; intros cur; cbn [tokens_from count count_occ].
  - destruct cur; cbn [length]; lia.
  - unfold count in *. cbn [count_occ]. destruct (N.eqb_spec x d) as [->|Hx].
    + destruct (N.eq_dec d d); [|easy]. destruct cur as [|y cur].
      * specialize (IH []). cbn beta iota in IH. lia.
      * cbn [length]. specialize (IH []). cbn beta iota in IH. lia.
    + destruct (N.eq_dec x d); [easy|]. specialize (IH (x :: cur)). cbn beta iota in IH. destruct cur; lia.
Qed.
Lemma tokens_some d : forall s cur, (exists x, In x s /\ x <> d) \/ cur <> [] -> tokens_from d s cur <> [].
Proof.
  induction s as [|y s IH]; intros cur H; cbn [tokens_from].
  - destruct H as [[x [[] _]]|H]. now destruct cur.
  - destruct (N.eqb_spec y d) as [->|Hy].
    + destruct cur as [|z cur]; [|discriminate]. destruct H as [[x [[H|H] Hx]]|H]; [congruence| |easy]. apply IH. left. eauto.
    + apply IH. right. discriminate.
Qed.
Lemma constituents_within X c : forall names acc, unless X (length acc + length names <= 8) -> within X (constituents c names acc).
Proof.
  induction names as [|n names IH]; intros acc H; cbn [constituents]; [exact Logic.I|].
  destruct (config_get_layer_index c n); [|exact Logic.I]. cbn [length] in H. destruct (Nat.ltb_spec (length acc) 8).
  - apply IH. eapply unless_imp; [|exact H]. intros L. rewrite app_length. cbn [length]. lia.
  - destruct H as [->|H]; [easy|lia].
Qed.
(* a section name that stands for a layer *)
Definition layer_name_ok (n : str) : Prop := (exists x, In x n /\ x <> 58%N) /\ count 43 n <= 7.
Lemma first_token_sub d n t : In t (tokens d n) -> forall x, count x t <= count x n.
Proof.
  intros H x. unfold tokens in H.
  assert (G : forall s cur t, In t (tokens_from d s cur) -> count x t <= count x s + count x (rev cur)).
  { clear. induction s as [|y s IH]; intros cur t H; cbn [tokens_from] in H.
    - destruct cur; [easy|]. destruct H as [<-|[]]. cbn. lia.
    - assert (E : count x (y :: s) = count x [y] + count x s).
      { unfold count. cbn [count_occ]. destruct (N.eq_dec y x); lia. }
      rewrite E. destruct (y =? d)%N.
      + destruct cur as [|z cur].
        * apply IH in H. cbn [rev] in *. lia.
        * destruct H as [<-|H]; [lia|]. apply IH in H. change (count x (rev [])) with 0 in H. lia.
      + apply IH in H. cbn [rev] in H. unfold count in *. rewrite count_occ_app in H. lia. }
  apply G in H. change (count x (rev [])) with 0 in H. lia.
Qed.
Lemma add_layer_within X c s : unless X (layer_name_ok s) -> within X (config_add_layer c s).
Proof.
  intros H. unfold config_add_layer. destruct (Nat.leb _ _); [exact Logic.I|].
  destruct (match tokens 58 s with [] => None | n :: _ => config_get_layer_index c n end); [exact Logic.I|].
  destruct (Nat.leb _ _); [exact Logic.I|]. apply within_bind; [|intros [l|] _; exact Logic.I].
  unfold new_layer. destruct (tokens 58 s) as [|name rest] eqn:Et.
  - destruct H as [->|[H _]]; [easy|]. exfalso. revert Et. unfold tokens. apply tokens_some. now left.
  - destruct (has_char 43 name).
    + destruct rest; [|exact Logic.I]. apply within_bind; [|intros [cs|] _; exact Logic.I]. apply constituents_within.
      eapply unless_imp; [|exact H]. intros [_ Hc]. cbn [length].
      pose proof (tokens_count 43 name []) as T. unfold tokens. cbn beta iota in T.
      pose proof (first_token_sub 58 s name ltac:(rewrite Et; now left) 43%N). lia.
    + destruct rest as [|t r]; [exact Logic.I|]. destruct (str_eqb t _); [exact Logic.I|].
      destruct (parse_modset t); exact Logic.I.
Qed.

(* ---- sections ---------------------------------------------------------------------- *)
Lemma fold_within {A} X (f : config -> A -> res config) (I : config -> Prop) (P : A -> Prop) :
  (forall c e, unless X (I c) -> unless X (P e) -> within X (f c e) /\ forall c', f c e = Ok c' -> unless X (I c')) ->
  forall es c, unless X (I c) -> unless X (Forall P es) -> within X (foldr_res f es c) /\ forall c', foldr_res f es c = Ok c' -> unless X (I c').
Proof.
  intros Hf. induction es as [|e es IH]; intros c Hc He; cbn [foldr_res].
  - split; [exact Logic.I|]. intros c' H. now apply Ok_inj in H; subst.
  - assert (He1 : unless X (P e)) by (eapply unless_imp; [|exact He]; intros F; now apply Forall_inv in F).
    assert (He2 : unless X (Forall P es)) by (eapply unless_imp; [|exact He]; intros F; now apply Forall_inv_tail in F).
    destruct (Hf c e Hc He1) as [W N]. split.
    + apply within_bind; [exact W|]. intros c1 E. apply IH; auto.
    + intros c' H. bstep H c1 E. eapply IH; [| |exact H]; auto.
Qed.
Definition has_value (e : str * option str) : Prop := snd e <> None.
Definition is_name (n m : str) : Prop := n = m.
Lemma global_within X c e : unless X (has_value e) -> within X (parse_global_entry c e).
Proof.
  intros H. destruct e as [key val]. unfold parse_global_entry.
  repeat match goal with |- within _ (if ?b then _ else _) => destruct b end; try exact Logic.I;
    (destruct val; [exact Logic.I|]; destruct H as [->|H]; [easy|now destruct H]).
Qed.
Lemma alias_within X c e : unless X (has_value e) -> within X (parse_alias_entry c e).
Proof.
  intros H. destruct e as [key val]. unfold parse_alias_entry. destruct (_ =? 0)%N; [exact Logic.I|].
  destruct val; [destruct (Nat.leb _ _); exact Logic.I|]. destruct H as [->|H]; [easy|now destruct H].
Qed.
Lemma id_within X c e : unless X (length (c_ids c) < 64) -> within X (parse_id_entry c e).
Proof.
  intros H. unfold parse_id_entry, add_id.
  repeat match goal with |- within _ (if ?b then _ else _) => destruct b eqn:? end; try exact Logic.I;
    try (destruct H as [->|H]; [easy|]); exfalso; match goal with E : Nat.ltb _ _ = false |- _ => apply Nat.ltb_ge in E end; lia.
Qed.
Lemma id_count c e c' : parse_id_entry c e = Ok c' -> length (c_ids c') <= S (length (c_ids c)).
Proof.
  intros H. unfold parse_id_entry, add_id in H.
  repeat match type of H with (if ?b then _ else _) = _ => destruct b end; try discriminate; apply Ok_inj in H; subst;
    cbn [c_ids set_c_ids set_c_wildcard]; rewrite ?app_length; cbn [length]; lia.
Qed.
Lemma ids_within X : forall es c, unless X (length (c_ids c) + length es <= 64) -> within X (foldr_res parse_id_entry es c).
Proof.
  induction es as [|e es IH]; intros c H; cbn [foldr_res]; [exact Logic.I|]. cbn [length] in H. apply within_bind.
  - apply id_within. eapply unless_imp; [|exact H]. lia.
  - intros c1 E. apply id_count in E. apply IH. eapply unless_imp; [|exact H]. lia.
Qed.
Lemma ids_count : forall es c c', foldr_res parse_id_entry es c = Ok c' -> length (c_ids c') <= length (c_ids c) + length es.
Proof.
  induction es as [|e es IH]; intros c c' H; cbn [foldr_res] in H; [apply Ok_inj in H; subst; lia|].
  bstep H c1 E. apply id_count in E. apply IH in H. cbn [length]. lia.
Qed.
(* which entries of the text count as ids *)
Definition id_lines (secs : list section) : nat :=
  fold_right (fun s n => (if str_eqb (sec_name s) (bs "ids") then length (sec_entries s) else 0) + n) 0 secs.

Definition section_ok (s : section) : Prop :=
  (sec_name s = bs "aliases" \/ sec_name s = bs "global" -> Forall has_value (sec_entries s))
  /\ (~ special (sec_name s) -> layer_name_ok (sec_name s)).
Lemma str_eqb_refl' a : str_eqb a a = true.
Proof. induction a; cbn [str_eqb]; [easy|]. now rewrite N.eqb_refl. Qed.
Lemma str_eqb_false a b : str_eqb a b = false -> a <> b.
Proof. intros H ->. rewrite str_eqb_refl' in H. discriminate. Qed.
Lemma ids_same_alias c e c' : parse_alias_entry c e = Ok c' -> c_ids c' = c_ids c /\ c_wildcard c' = c_wildcard c.
Proof.
  destruct e as [key val]. unfold parse_alias_entry. intros H. destruct (_ =? 0)%N; [apply Ok_inj in H; now subst|].
  destruct val as [name|]; [|discriminate]. destruct (Nat.leb _ _); [apply Ok_inj in H; now subst|].
  apply Ok_inj in H; subst. cbn [c_ids c_wildcard set_c_aliases]. destruct (_ =? 0)%N; [easy|]. now destruct (c_layers c).
Qed.
Lemma ids_same_global c e c' : parse_global_entry c e = Ok c' -> c_ids c' = c_ids c /\ c_wildcard c' = c_wildcard c.
Proof.
  destruct e as [key val]. unfold parse_global_entry. intros H.
  repeat match type of H with (if ?b then _ else _) = _ => destruct b end;
    try (apply Ok_inj in H; now subst); destruct val; try discriminate; apply Ok_inj in H; now subst.
Qed.
Lemma ids_same_layer c s c' : config_add_layer c s = Ok c' -> c_ids c' = c_ids c /\ c_wildcard c' = c_wildcard c.
Proof.
  unfold config_add_layer. intros H. destruct (Nat.leb _ _); [apply Ok_inj in H; now subst|].
  destruct (match tokens 58 s with [] => None | n :: _ => config_get_layer_index c n end); [apply Ok_inj in H; now subst|].
  destruct (Nat.leb _ _); [apply Ok_inj in H; now subst|]. bstep H o E. apply Ok_inj in H. subst. now destruct o.
Qed.
Lemma ids_same_fold {A} (f : config -> A -> res config) :
  (forall c e c', f c e = Ok c' -> c_ids c' = c_ids c /\ c_wildcard c' = c_wildcard c) ->
  forall es c c', foldr_res f es c = Ok c' -> c_ids c' = c_ids c /\ c_wildcard c' = c_wildcard c.
Proof.
  intros Hf. induction es as [|e es IH]; intros c c' H; cbn [foldr_res] in H; [apply Ok_inj in H; now subst|].
  bstep H c1 E. apply Hf in E as [E1 E2]. apply IH in H as [H1 H2]. split; congruence.
Qed.
Lemma pass1_count c s c' : pass1_section c s = Ok c' ->
  length (c_ids c') <= length (c_ids c) + (if str_eqb (sec_name s) (bs "ids") then length (sec_entries s) else 0).
Proof.
  unfold pass1_section. intros H. destruct (str_eqb (sec_name s) (bs "ids")); [now apply ids_count in H|].
  rewrite Nat.add_0_r. apply Nat.eq_le_incl. f_equal. destruct (str_eqb _ _); [apply (ids_same_fold _ ids_same_alias) in H; apply H|].
  destruct (str_eqb _ _); [apply (ids_same_fold _ ids_same_global) in H; apply H|]. apply ids_same_layer in H; apply H.
Qed.
Lemma pass1_within X c s : unless X (section_ok s) -> unless X (length (c_ids c) + id_lines [s] <= 64) -> within X (pass1_section c s).
Proof.
  intros S L. unfold pass1_section. unfold id_lines in L. cbn [fold_right] in L. destruct (str_eqb (sec_name s) (bs "ids")) eqn:E1.
  { apply ids_within. eapply unless_imp; [|exact L]. lia. }
  apply str_eqb_false in E1. destruct (str_eqb (sec_name s) (bs "aliases")) eqn:E2.
  { apply str_eqb_true in E2. apply (fold_within X parse_alias_entry (fun _ => True) has_value).
    - intros c0 e _ He. split; [now apply alias_within|]. intros; now right.
    - now right.
    - eapply unless_imp; [|exact S]. intros [H _]. auto. }
  apply str_eqb_false in E2. destruct (str_eqb (sec_name s) (bs "global")) eqn:E3.
  { apply str_eqb_true in E3. apply (fold_within X parse_global_entry (fun _ => True) has_value).
    - intros c0 e _ He. split; [now apply global_within|]. intros; now right.
    - now right.
    - eapply unless_imp; [|exact S]. intros [H _]. auto. }
  apply str_eqb_false in E3. apply add_layer_within. eapply unless_imp; [|exact S]. intros [_ H]. apply H.
  unfold special. tauto.
Qed.
Lemma pass1_all_within X : forall secs c, unless X (Forall section_ok secs) -> unless X (length (c_ids c) + id_lines secs <= 64) ->
  within X (foldr_res pass1_section secs c).
Proof.
  induction secs as [|s secs IH]; intros c F L; cbn [foldr_res]; [exact Logic.I|]. apply within_bind.
  - apply pass1_within.
    + eapply unless_imp; [|exact F]. intros G. now apply Forall_inv in G.
    + eapply unless_imp; [|exact L]. unfold id_lines. cbn [fold_right]. lia.
  - intros c1 E. apply pass1_count in E. apply IH.
    + eapply unless_imp; [|exact F]. intros G. now apply Forall_inv_tail in G.
    + eapply unless_imp; [|exact L]. unfold id_lines. cbn [fold_right]. lia.
Qed.
(* the bindings *)
Definition binding_ok (n : str) (e : str * option str) : Prop :=
  match snd e with
  | None => True
  | Some v => ascii n /\ ascii (fst e) /\ ascii v /\ commas n + commas (fst e) + commas v <= 4
  end.
Definition bindings_ok (s : section) : Prop := special (sec_name s) \/ Forall (binding_ok (sec_name s)) (sec_entries s).
Lemma firstn_commas k s : commas (firstn k s) <= commas s.
Proof. rewrite <- (firstn_skipn k s) at 2. rewrite commas_app. lia. Qed.
Lemma pass2_within X c s : unless X (inv c) -> unless X (section_ok s /\ bindings_ok s) ->
  within X (pass2_section c s) /\ forall c', pass2_section c s = Ok c' -> unless X (inv c').
Proof.
  intros Hi H. split.
  2:{ intros c' E. destruct Hi as [->|Hi]; [now left|right]. eapply pass2_ok; eauto. }
  unfold pass2_section. destruct (_ || _) eqn:E; [exact Logic.I|].
  apply orb_false_iff in E as [E E3]. apply orb_false_iff in E as [E1 E2].
  apply str_eqb_false in E1, E2, E3.
  apply (fold_within X _ inv (fun e => section_ok s /\ binding_ok (sec_name s) e)).
  2:{ exact Hi. }
  2:{ eapply unless_imp; [|exact H]. intros [S [B|B]]; [unfold special in B; tauto|]. eapply Forall_impl; [|exact B]. auto. }
  intros c0 e Hi0 He. unfold pass2_entry. destruct e as [k [v|]]; cbn [snd fst]; [|split; [exact Logic.I|intros c' Ec; apply Ok_inj in Ec; now subst]].
  destruct (tokens 58 (sec_name s)) as [|ln rest] eqn:Et; cbn [hd_error].
  { destruct He as [->|[[_ S] _]]; [split; [easy|discriminate]|]. exfalso.
    destruct S as [S _]; [unfold special; tauto|]. revert Et. unfold tokens. apply tokens_some. now left. }
  split.
  - apply within_bind; [|intros [c1 ok] _; exact Logic.I]. apply add_entry_within.
    + eapply unless_imp; [|exact Hi0]. now intros [_ M].
    + destruct He as [->|[_ B]]; [now left|right]. unfold binding_ok in B. cbn [snd fst] in B. destruct B as [B1 [B2 [B3 B4]]].
      assert (Hin : In ln (tokens 58 (sec_name s))) by (rewrite Et; now left).
      assert (Hl : ascii ln). { eapply ascii_incl; [|exact B1]. intros x Hx. unfold tokens in Hin.
        destruct (tokens_from_incl _ _ _ _ _ Hin Hx) as [G|[]]. exact G. }
      pose proof (first_token_sub 58 (sec_name s) ln Hin 44%N) as Hc. unfold count in Hc. fold (commas ln) in Hc. fold (commas (sec_name s)) in Hc.
      split.
      * eapply ascii_incl with (s := ln ++ bs "." ++ k ++ bs " = " ++ v).
        -- intros x Hx. rewrite <- (firstn_skipn 511 (ln ++ bs "." ++ k ++ bs " = " ++ v)). apply in_or_app. now left.
        -- unfold ascii in *. repeat (apply Forall_app; split); auto; vm_compute; repeat constructor.
      * pose proof (firstn_commas 511 (ln ++ bs "." ++ k ++ bs " = " ++ v)) as F. rewrite !commas_app in F.
        change (commas (bs ".")) with 0 in F. change (commas (bs " = ")) with 0 in F. lia.
  - intros c' Ec. destruct Hi0 as [->|Hi0]; [now left|right]. bstep Ec r Er. destruct r as [c1 ok]. apply Ok_inj in Ec; subst.
    eapply config_add_entry_ok; eauto.
Qed.
Lemma pass2_all_within X : forall secs c, unless X (inv c) -> unless X (Forall (fun s => section_ok s /\ bindings_ok s) secs) ->
  within X (foldr_res pass2_section secs c).
Proof.
  intros secs c Hi F. apply (fold_within X pass2_section inv (fun s => section_ok s /\ bindings_ok s)); auto.
  intros c0 e H0 He. now apply pass2_within.
Qed.

(* ---- the default text and whole files ------------------------------------------------ *)
Lemma default_bindings : Forall (fun s => section_ok s /\ bindings_ok s) default_secs.
Proof.
  assert (A : forall l, forallb (fun c => (c <? 128)%N) l = true -> ascii l).
  { intros l H. apply Forall_forall. intros x Hx. rewrite forallb_forall in H. apply H in Hx. now apply N.ltb_lt in Hx. }
  assert (V : forall es : list (str * option str), forallb (fun e => match snd e with Some _ => true | None => false end) es = true -> Forall has_value es).
  { intros es H. apply Forall_forall. intros x Hx. rewrite forallb_forall in H. apply H in Hx. unfold has_value. now destruct (snd x). }
  assert (L : forall n, existsb (fun x => negb (x =? 58)%N) n && Nat.leb (count 43 n) 7 = true -> layer_name_ok n).
  { intros n H. apply andb_true_iff in H as [H1 H2]. apply Nat.leb_le in H2. split; [|easy].
    apply existsb_exists in H1 as [x [H3 H4]]. exists x. split; [easy|]. apply negb_true_iff, N.eqb_neq in H4. exact H4. }
  assert (B : forall n e, (match snd e with None => true | Some v =>
      forallb (fun c => (c <? 128)%N) n && (forallb (fun c => (c <? 128)%N) (fst e) && (forallb (fun c => (c <? 128)%N) v
      && Nat.leb (commas n + commas (fst e) + commas v) 4)) end) = true -> binding_ok n e).
  { intros n [k [v|]] H; unfold binding_ok; cbn [fst snd] in *; [|exact Logic.I]. rewrite !andb_true_iff in H. destruct H as [H1 [H2 [H3 H4]]].
    apply Nat.leb_le in H4. auto. }
  unfold default_secs. repeat (apply Forall_cons; [split; [split; [intros _; apply V; vm_compute; reflexivity|intros S;
    first [exfalso; apply S; unfold special; cbn; vm_compute; tauto | apply L; vm_compute; reflexivity]]|
    right; cbn [sec_name sec_entries]; repeat (apply Forall_cons; [apply B; vm_compute; reflexivity|]); constructor]|]). constructor.
Qed.
Lemma entry_ids c exp c' ok : config_add_entry c exp = Ok (c', ok) -> c_ids c' = c_ids c /\ c_wildcard c' = c_wildcard c.
Proof.
  intros E. rewrite add_entry_unfold in E. destruct (N.leb _ _); [injection E as <- _; easy|]. destruct (split_entry _) as [l' s'].
  destruct (parse_kvp s') as [k v].
  destruct (config_get_layer_index _ _); [|injection E as <- _; easy]. bstep E r Er. destruct r as [c4 d].
  assert (G : grows c c4). { destruct v; [eapply parse_desc_grows; exact Er|injection Er as <- _; apply grows_refl]. }
  apply grows_layers in G as [_ [_ [G1 G2]]]. destruct d as [d|]; [|injection E as <- _; easy].
  unfold set_layer_entry in E.
  repeat match type of E with context [match ?b with _ => _ end] => destruct b end; injection E as <- _; easy.
Qed.
Lemma ids_same_pass2 c s c' : pass2_section c s = Ok c' -> c_ids c' = c_ids c /\ c_wildcard c' = c_wildcard c.
Proof.
  intros H. unfold pass2_section in H. destruct (_ || _); [apply Ok_inj in H; now subst|].
  eapply ids_same_fold; [|exact H]. intros c0 e c0' H0. unfold pass2_entry in H0. destruct (snd e); [|apply Ok_inj in H0; now subst].
  destruct (hd_error _); [|discriminate]. bstep H0 r E. destruct r as [cc ok]. apply Ok_inj in H0; subst. now apply entry_ids in E.
Qed.
Lemma default_ids c1 : foldr_res pass1_section default_secs zero_config = Ok c1 -> c_ids c1 = [] /\ c_wildcard c1 = false.
Proof.
  intros H. assert (G : (match foldr_res pass1_section default_secs zero_config with Ok c => (match c_ids c with [] => true | _ => false end) && negb (c_wildcard c) | _ => false end) = true)
    by (vm_compute; reflexivity).
  rewrite H in G. clear H. apply andb_true_iff in G as [G1 G2]. apply negb_true_iff in G2. now destruct (c_ids c1).
Qed.
Lemma config_init_total : exists c, config_init = Ok c /\ inv c /\ c_ids c = [] /\ c_wildcard c = false.
Proof.
  destruct pass1_default as [c1 [E1 I1]].
  pose proof (pass2_all_within false default_secs c1 (or_intror I1) (or_intror default_bindings)) as W.
  assert (X : exists c2, foldr_res pass2_section default_secs c1 = Ok c2).
  { clear E1. destruct (foldr_res pass2_section default_secs c1) as [c2| | |]; cbn [within] in W; [now exists c2|discriminate W..|destruct W]. }
  destruct X as [c2 E2]. clear W. pose proof (default_ids _ E1) as D1.
  pose proof (ids_same_fold _ ids_same_pass2 _ _ _ E2) as D2.
  assert (G : exists c, config_init = Ok c /\ c_ids c = c_ids c2 /\ c_wildcard c = c_wildcard c2).
  { unfold config_init, config_parse_string. rewrite default_secs_ok. cbn [bind]. rewrite E1. cbn [bind]. rewrite E2. cbn [bind].
    eexists. split; [reflexivity|]. split; reflexivity. }
  clear E1 E2. destruct G as [c [G [G1 G2]]]. exists c. split; [exact G|]. split; [exact (config_init_ok _ G)|].
  rewrite G1, G2. destruct D1, D2. split; congruence.
Qed.

Lemma config_parse_from : exists c0, inv c0 /\ c_ids c0 = [] /\ c_wildcard c0 = false /\ forall text, config_parse text = config_parse_string c0 text.
Proof.
  destruct config_init_total as [c [E [H1 [H2 H3]]]]. exists c. split; [exact H1|]. split; [exact H2|]. split; [exact H3|].
  intros text. unfold config_parse. rewrite E. reflexivity.
Qed.

(* ---- the whole text ------------------------------------------------------------------ *)
Theorem parse_terminates text : config_parse text <> NoFuel.
Proof.
  destruct config_parse_from as [c [_ [_ [_ E]]]]. rewrite E.
  enough (G : within true (config_parse_string c text)) by (intros F; rewrite F in G; exact G).
  unfold config_parse_string. apply within_bind.
  - unfold ini_parse_string. generalize (@nil section), (lines text). intros d ls. revert d.
    induction ls as [|l ls IH]; intros d; cbn [ini_lines]; [exact Logic.I|].
    repeat match goal with |- within _ (match ?b with _ => _ end) => destruct b end; try exact Logic.I; try reflexivity; apply IH.
  - intros [secs|] _; [|exact Logic.I]. apply within_bind; [apply pass1_all_within; now left|]. intros c1 _.
    apply within_bind; [apply pass2_all_within; now left|]. intros; exact Logic.I.
Qed.

(* sections of the right shape *)
Theorem parse_sections secs c : inv c -> c_ids c = [] -> id_lines secs <= 64 ->
  Forall (fun s => section_ok s /\ bindings_ok s) secs ->
  exists c', (c1 <- foldr_res pass1_section secs c ;; foldr_res pass2_section secs c1) = Ok c'.
Proof.
  intros I0 E L F.
  assert (W : within false (c1 <- foldr_res pass1_section secs c ;; foldr_res pass2_section secs c1)).
  { apply within_bind.
    - apply pass1_all_within; right; [|rewrite E; exact L]. eapply Forall_impl; [|exact F]. now intros s [S _].
    - intros c1 E1. apply pass2_all_within; right; [|exact F]. eapply foldr_res_ok; [exact pass1_ok|exact I0|exact E1]. }
  destruct (bind _ _) as [c'| | |]; cbn [within] in W; [now exists c'|discriminate W..|destruct W].
Qed.
