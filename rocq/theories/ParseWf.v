(* The parser only produces well formed configurations (C32). *)
From Coq Require Import String.
From Verif Require Import Base Lib KeyTable Keys Types Str MacroParse Ini Config SpecWf.
From Coq Require Import List.
Import ListNotations.
Local Open Scope list_scope.
Local Notation length := List.length.

Notation len l := (N.of_nat (length l)).
Definition okd (c : config) (d : desc) : Prop :=
  ok_desc c (len (c_descs c)) (len (c_macros c)) (len (c_cmds c)) d.

(* ---- changes that keep everything well formed ------------------------------- *)
Definition same_tables (c c' : config) : Prop :=
  c_layers c' = c_layers c /\ c_descs c' = c_descs c /\ c_macros c' = c_macros c
  /\ c_cmds c' = c_cmds c.
Lemma ok_desc_layers c c' nd nm nc d : c_layers c' = c_layers c ->
  ok_desc c nd nm nc d -> ok_desc c' nd nm nc d.
Proof. intros E. destruct d; cbn; unfold layer_ref, layout_ref; rewrite ?E; auto. Qed.

(* parse_descriptor: tables grow, layers stay *)
Definition ext (c c' : config) : Prop :=
  c_layers c' = c_layers c
  /\ (exists l, c_descs c' = c_descs c ++ l)
  /\ length (c_macros c) <= length (c_macros c') /\ length (c_cmds c) <= length (c_cmds c')
  /\ c_ids c' = c_ids c /\ c_aliases c' = c_aliases c.
Lemma ext_refl c : ext c c.
Proof. repeat split; auto. exists []. now rewrite app_nil_r. Qed.
Lemma ext_trans a b c : ext a b -> ext b c -> ext a c.
Proof.
  intros [A1 [[l A2] [A3 [A4 [A5 A6]]]]] [B1 [[l' B2] [B3 [B4 [B5 B6]]]]].
  repeat split; try congruence; try lia. exists (l ++ l'). now rewrite B2, A2, app_assoc.
Qed.
Lemma ext_descs c c' : ext c c' -> (len (c_descs c) <= len (c_descs c'))%N.
Proof. intros [_ [[l E] _]]. rewrite E, app_length. lia. Qed.
Lemma okd_ext c c' d : ext c c' -> okd c d -> okd c' d.
Proof.
  intros H Hd. unfold okd. apply (ok_desc_layers c); [apply H|].
  assert (G : forall nd nm nc nd' nm' nc', (nd <= nd')%N -> (nm <= nm')%N -> (nc <= nc')%N ->
    ok_desc c nd nm nc d -> ok_desc c nd' nm' nc' d).
  { clear. intros * H1 H2 H3. destruct d; cbn; intuition lia. }
  eapply G; [..|exact Hd]; [now apply ext_descs|destruct H as [_ [_ [H _]]]|destruct H as [_ [_ [_ [H _]]]]]; lia.
Qed.

(* the layers of the five modifiers exist *)
Definition mod_names : list str := Eval vm_compute in
  [bs "shift"; bs "control"; bs "meta"; bs "alt"; bs "altgr"].
Definition has_mods (c : config) : Prop :=
  forall n, In n mod_names -> exists i, config_get_layer_index c n = Some i /\ layer_ref c i.
Lemma mod_layer_in code n : mod_layer_name code = Some n -> In n mod_names.
Proof.
  unfold mod_layer_name.
  repeat match goal with |- (if ?b then _ else _) = _ -> _ => destruct b end;
    try discriminate; intros [= <-]; vm_compute; auto 10.
Qed.
Definition inv (c : config) : Prop := wf_config c /\ has_mods c.

Lemma wf_layer_ext c c' l : ext c c' -> wf_layer c l -> wf_layer c' l.
Proof.
  intros He [H1 H2 H3 H4 H5]. constructor; auto.
  - intros code. apply (okd_ext c c' _ He). apply H1.
  - intros ch Hc. destruct (H3 ch Hc). split; auto. now apply (okd_ext c c' _ He).
  - destruct H4. split; auto. destruct He as [-> _]. auto.
Qed.
Lemma ok_desc_nd c nd nm nc nd' nm' nc' d : (nd <= nd')%N -> (nm <= nm')%N -> (nc <= nc')%N ->
  ok_desc c nd nm nc d -> ok_desc c nd' nm' nc' d.
Proof. intros H1 H2 H3. destruct d; cbn; intuition lia. Qed.

(* growing the tables within their limits, new descriptors being fine *)
Lemma wf_ext c c' : wf_config c -> ext c c' ->
  (len (c_descs c') <= 1024)%N -> (len (c_macros c') <= 256)%N -> length (c_cmds c') <= 64 ->
  (forall i, length (c_descs c) <= i < length (c_descs c') ->
     ok_desc c' (N.of_nat i) (len (c_macros c')) (len (c_cmds c')) (nth i (c_descs c') DNone)
     /\ nth i (c_descs c') DNone <> DNone) ->
  wf_config c'.
Proof.
  intros [W1 W2 W3 W4 W5 W6 W7 W8 W9] He H1 H2 H3 H4.
  pose proof He as [E1 [[l E2] [E3 [E4 [E5 E6]]]]].
  constructor; rewrite ?E1, ?E5; auto.
  - intros ly Hl. apply (wf_layer_ext c); auto.
  - intros i Hi. destruct (Nat.ltb_spec i (length (c_descs c))); [|apply H4; lia].
    rewrite E2, app_nth1 by auto. split; [|now apply W6]. apply (ok_desc_layers c); auto.
    eapply ok_desc_nd; [..|apply W6; auto]; lia.
Qed.
Lemma has_mods_ext c c' : ext c c' -> has_mods c -> has_mods c'.
Proof.
  intros [E _] H n Hn. destruct (H n Hn) as [i [H1 H2]]. exists i.
  unfold config_get_layer_index, layer_ref in *. rewrite E. auto.
Qed.

(* ---- parse_descriptor ---------------------------------------------------------- *)
Definition parse_arg (pd : config -> str -> res (config * option desc)) (c : config) (t : argt) (a : str)
  : res (config * option argv) :=
  match t with
  | ADesc =>
      '(c1, d) <- pd c a ;;
      match d with
      | None => Ok (c1, None)
      | Some d =>
          if N.leb 1024 (N.of_nat (length (c_descs c1))) then Ok (c1, None)
          else Ok (set_c_descs (c_descs c1 ++ [d]) c1, Some (VIdx (length (c_descs c1))))
      end
  | _ => parse_simple_arg c t a
  end.
Section Args.
Variable pd : config -> str -> res (config * option desc).
Fixpoint parse_args (ts : list (argt * str))
  (c : config) (vals : list argv) : res (config * option (list argv)) :=
  match ts with
  | [] => Ok (c, Some vals)
  | (t, a) :: r =>
      '(c1, v) <- parse_arg pd c t a ;;
      match v with
      | None => Ok (c1, None)
      | Some v => parse_args r c1 (v :: vals)
      end
  end.
End Args.
(* an action call whose arguments have been split *)
Definition parse_call (pd : config -> str -> res (config * option desc)) (c : config) (fn : str) (args : list str)
  : res (config * option desc) :=
  match find_action actions fn with
  | None => Ok (c, None)
  | Some (oper, types) =>
      if negb (Nat.eqb (length args) (length types)) then Ok (c, None)
      else
        '(c', vals) <- parse_args pd (rev (combine types args)) c [] ;;
        Ok (c', match vals with None => None | Some vs => Some (build oper vs) end)
  end.
Definition parse_body (pd : config -> str -> res (config * option desc)) (c : config) (s : str)
  : res (config * option desc) :=
  match s with
  | [] => Ok (c, Some DNone)
  | _ =>
      match parse_key_sequence s with
      | Some (code, mods) =>
          match mod_layer_name code with
          | Some ln =>
              match config_get_layer_index c ln with
              | Some i => Ok (c, Some (DLayer i))
              | None => Crash CModLayer
              end
          | None => Ok (c, Some (DKey code mods))
          end
      | None =>
          match parse_command s with
          | POk cmd =>
              if Nat.leb 64 (length (c_cmds c)) then Ok (c, None)
              else Ok (set_c_cmds (c_cmds c ++ [cmd]) c, Some (DCommand (length (c_cmds c))))
          | PError => Ok (c, None)
          | PInvalid =>
              r <- parse_macro_expression s ;;
              match r with
              | POk m =>
                  if Nat.leb 256 (length (c_macros c)) then Ok (c, None)
                  else Ok (set_c_macros (c_macros c ++ [m]) c, Some (DMacro (length (c_macros c))))
              | PError => Ok (c, None)
              | PInvalid =>
                  o <- parse_fn s ;;
                  match o with
                  | None => Ok (c, None)
                  | Some (fn, args) =>
                      o2 <- (if str_eqb fn (bs "lettermod") then
                               match args with
                               | [a0; a1; a2; a3] => parse_fn (lettermod_text a0 a1 a2 a3)
                               | _ => Ok None
                               end
                             else Ok (Some (fn, args))) ;;
                      match o2 with
                      | None => Ok (c, None)
                      | Some (fn2, args2) => parse_call pd c fn2 args2
                      end
                  end
              end
          end
      end
  end.

Lemma parse_desc_S f c s : parse_desc (S f) c s = parse_body (parse_desc f) c s.
Proof. reflexivity. Qed.

(* the result of parsing a descriptor or an argument *)
Definition good_res {A} (ok : config -> A -> Prop) (c : config) (r : config * option A) : Prop :=
  inv (fst r) /\ ext c (fst r) /\ forall d, snd r = Some d -> ok (fst r) d.

Definition arg_ok (c : config) (t : argt) (v : argv) : Prop :=
  match t, v with
  | ALayer, VIdx i => layer_ref c i
  | ALayout, VIdx i => layout_ref c i
  | AMacro, VIdx m => m < length (c_macros c)
  | ADesc, VIdx a => a < length (c_descs c)
  | ATimeout, VNum t => u16 t
  | ASens, VNum s => i16 s
  | _, _ => False
  end.
Lemma arg_ok_ext c c' t v : ext c c' -> arg_ok c t v -> arg_ok c' t v.
Proof.
  intros He. pose proof (ext_descs _ _ He). destruct He as [E [_ [E3 _]]].
  destruct t, v; cbn; unfold layer_ref, layout_ref; rewrite ?E; auto; lia.
Qed.

Lemma build_ok c fn o ts vals : find_action actions fn = Some (o, ts) ->
  Forall2 (arg_ok c) ts vals -> okd c (build o vals).
Proof.
  intros H.
  assert (Hin : In (o, ts) (map (fun a => (snd (fst a), snd a)) actions)).
  { revert H. generalize actions. induction l as [|[[n o'] ts'] l IH]; cbn; [discriminate|].
    destruct (str_eqb n fn); [intros [= <- <-]; auto|auto]. }
  clear H. intros HF.
  repeat match goal with
  | H : Forall2 _ [] _ |- _ => inversion H; clear H; subst
  | H : Forall2 _ (_ :: _) _ |- _ => inversion H; clear H; subst
  | H : In _ (map _ actions) |- _ => vm_compute in H
  | H : _ \/ _ |- _ => destruct H
  | H : False |- _ => destruct H
  | H : (_, _) = (_, _) |- _ => injection H as <- <-
  end;
  repeat match goal with
  | H : arg_ok _ _ ?v |- _ => destruct v; cbn [arg_ok] in H
  | H : False |- _ => destruct H
  end; cbn; try tauto; first [assumption | lia | split; [tauto || lia|lia] | unfold u16 in *; intuition lia].
Qed.

Lemma layer_index_from_spec name : forall ls i j, layer_index_from ls name i = Some j ->
  i <= j < i + length ls /\ ly_name (nth (j - i) ls zero_layer) = name.
Proof.
  induction ls as [|l r IH]; cbn [layer_index_from length]; intros i j H; [discriminate|].
  destruct (str_eqb (ly_name l) name) eqn:E.
  - injection H as <-. rewrite Nat.sub_diag. apply str_eqb_eq in E. cbn. lia || (split; [lia|auto]).
  - apply IH in H as [H1 H2]. split; [lia|]. replace (j - i) with (S (j - S i)) by lia. exact H2.
Qed.
Lemma layer_index_lt c name i : config_get_layer_index c name = Some i -> i < length (c_layers c).
Proof. intros H. apply layer_index_from_spec in H. lia. Qed.
Lemma is_layout_spec t : is_layout t = true <-> t = LLayout.
Proof. destruct t; cbn; split; auto; discriminate. Qed.

Lemma wf_add_macro c m : wf_config c -> length (c_macros c) < 256 ->
  wf_config (set_c_macros (c_macros c ++ [m]) c) /\ ext c (set_c_macros (c_macros c ++ [m]) c).
Proof.
  intros W H.
  assert (He : ext c (set_c_macros (c_macros c ++ [m]) c)).
  { repeat split; auto.
    - exists []. symmetry. apply app_nil_r.
    - cbn. rewrite app_length. lia. }
  split; auto. apply (wf_ext c); auto; cbn [c_descs c_macros c_cmds set_c_macros].
  - apply W.
  - rewrite app_length. cbn [length]. lia.
  - apply W.
  - intros i Hi. lia.
Qed.
Lemma wf_add_cmd c m : wf_config c -> length (c_cmds c) < 64 ->
  wf_config (set_c_cmds (c_cmds c ++ [m]) c) /\ ext c (set_c_cmds (c_cmds c ++ [m]) c).
Proof.
  intros W H.
  assert (He : ext c (set_c_cmds (c_cmds c ++ [m]) c)).
  { repeat split; auto.
    - exists []. symmetry. apply app_nil_r.
    - cbn. rewrite app_length. lia. }
  split; auto. apply (wf_ext c); auto; cbn [c_descs c_macros c_cmds set_c_cmds].
  - apply W.
  - apply W.
  - rewrite app_length. cbn [length]. lia.
  - intros i Hi. lia.
Qed.
Lemma wf_add_desc c d : wf_config c -> okd c d -> d <> DNone -> (len (c_descs c) < 1024)%N ->
  wf_config (set_c_descs (c_descs c ++ [d]) c) /\ ext c (set_c_descs (c_descs c ++ [d]) c).
Proof.
  intros W Hd Hn H.
  assert (He : ext c (set_c_descs (c_descs c ++ [d]) c)).
  { repeat split; auto. exists [d]. reflexivity. }
  split; auto. apply (wf_ext c); auto; cbn [c_descs c_macros c_cmds set_c_descs].
  - rewrite app_length. cbn [length]. lia.
  - apply W.
  - apply W.
  - intros i Hi. rewrite app_length in Hi. cbn [length] in Hi.
    replace i with (length (c_descs c)) by lia. rewrite app_nth2, Nat.sub_diag by lia. cbn [nth].
    split; [|exact Hn]. apply (ok_desc_layers c); auto.
Qed.

Lemma parse_simple_ok c t a r : inv c -> t <> ADesc -> parse_simple_arg c t a = Ok r ->
  good_res (fun c v => arg_ok c t v) c r.
Proof.
  intros [W M] Ht H. unfold parse_simple_arg in H.
  assert (Hno : good_res (fun c v => arg_ok c t v) c (c, None)).
  { split; [split; auto|]. split; [apply ext_refl|discriminate]. }
  destruct t; try congruence.
  - destruct (Nat.leb_spec 256 (length (c_macros c))); [apply Ok_inj in H; subst; auto|].
    bstep H o E. destruct o as [| |m]; apply Ok_inj in H; subst; auto.
    destruct (wf_add_macro c m W) as [W' He]; auto.
    split; [split; auto; eapply has_mods_ext; eauto|]. split; auto. intros v [= <-]. cbn.
    rewrite app_length. cbn. lia.
  - destruct (str_eqb a _); [apply Ok_inj in H; subst; auto|].
    destruct (config_get_layer_index c a) as [i|] eqn:E; [|apply Ok_inj in H; subst; auto].
    destruct (is_layout _) eqn:El; apply Ok_inj in H; subst; auto.
    split; [split; auto|]. split; [apply ext_refl|]. intros v [= <-]. cbn.
    unfold layer_type_at in El.
    split; [now apply layer_index_lt in E|]. split.
    + intros ->. rewrite (wf_main _ W) in El. discriminate.
    + intros Hl. rewrite Hl in El. discriminate.
  - destruct (config_get_layer_index c a) as [i|] eqn:E; [|apply Ok_inj in H; subst; auto].
    destruct (negb (Nat.eqb i 0) && negb _) eqn:El; apply Ok_inj in H; subst; auto.
    split; [split; auto|]. split; [apply ext_refl|]. intros v [= <-]. cbn.
    split; [now apply layer_index_lt in E|].
    destruct (Nat.eqb_spec i 0); [auto|]. right. cbn [negb andb] in El.
    apply negb_false_iff in El. now apply is_layout_spec.
  - apply Ok_inj in H; subst. split; [split; auto|]. split; [apply ext_refl|]. intros v [= <-]. cbn [arg_ok fst].
    apply Z.mod_pos_bound. reflexivity.
  - apply Ok_inj in H; subst. split; [split; auto|]. split; [apply ext_refl|]. intros v [= <-]. cbn [arg_ok fst].
    unfold i16, wrap_s. set (z := atoi a). clearbody z. change (2 ^ 16)%Z with 65536%Z. change (2 ^ (16 - 1))%Z with 32768%Z.
    pose proof (Z.mod_pos_bound (z + 32768) 65536 eq_refl). lia.
Qed.

(* a binding that was written down is one *)
Definition okn (s : str) (c : config) (d : desc) : Prop := okd c d /\ (s <> [] -> d <> DNone).
Lemma build_okn c fn o ts vals s : find_action actions fn = Some (o, ts) ->
  Forall2 (arg_ok c) ts vals -> okn s c (build o vals).
Proof.
  intros H HF. split; [eapply build_ok; eauto|]. intros _.
  assert (Hin : In (o, ts) (map (fun a => (snd (fst a), snd a)) actions)).
  { revert H. generalize actions. induction l as [|[[n o'] ts'] l IH]; cbn; [discriminate|].
    destruct (str_eqb n fn); [intros [= <- <-]; auto|auto]. }
  clear H.
  repeat match goal with
  | H : Forall2 _ [] _ |- _ => inversion H; clear H; subst
  | H : Forall2 _ (_ :: _) _ |- _ => inversion H; clear H; subst
  | H : In _ (map _ actions) |- _ => vm_compute in H
  | H : _ \/ _ |- _ => destruct H
  | H : False |- _ => destruct H
  | H : (_, _) = (_, _) |- _ => injection H as <- <-
  end;
  repeat match goal with
  | H : arg_ok _ _ ?v |- _ => destruct v; cbn [arg_ok] in H
  | H : False |- _ => destruct H
  end; discriminate.
Qed.
(* parse_fn drops empty arguments *)
Lemma scan_args_nonempty : forall f c args l, Forall (fun a => a <> []) args ->
  scan_args f c args = Ok (Some l) -> Forall (fun a => a <> []) l.
Proof.
  induction f as [|f IH]; intros c args l Hf H; [discriminate|]. cbn [scan_args] in H.
  destruct (scan_arg c 0 []) as [[[a stop] r]|]; [|discriminate]. bstep H args' E.
  assert (G : Forall (fun a => a <> []) args').
  { destruct a; [now apply Ok_inj in E as <-|]. destruct (Nat.ltb _ _); [|discriminate]. apply Ok_inj in E as <-.
    apply Forall_app. split; [exact Hf|]. constructor; [discriminate|constructor]. }
  destruct (_ =? _)%N; [|eapply IH; eauto]. apply Ok_inj in H. injection H as <-. exact G.
Qed.
Lemma parse_fn_nonempty s fn args : parse_fn s = Ok (Some (fn, args)) -> Forall (fun a => a <> []) args.
Proof.
  unfold parse_fn. destruct (split_at_paren s []) as [[n r]|]; [|discriminate]. intros H. bstep H o E.
  destruct o as [l|]; [|discriminate]. apply Ok_inj in H. injection H as <- <-. eapply scan_args_nonempty; [|exact E]. constructor.
Qed.
Lemma lettermod_args s fn args fn2 args2 : parse_fn s = Ok (Some (fn, args)) ->
  (if str_eqb fn (bs "lettermod") then
     match args with [a0; a1; a2; a3] => parse_fn (lettermod_text a0 a1 a2 a3) | _ => Ok None end
   else Ok (Some (fn, args))) = Ok (Some (fn2, args2)) -> Forall (fun a => a <> []) args2.
Proof.
  intros H E. destruct (str_eqb _ _).
  - destruct args as [|a0 [|a1 [|a2 [|a3 [|? ?]]]]]; try discriminate. now apply parse_fn_nonempty in E.
  - apply Ok_inj in E. injection E as <- <-. now apply parse_fn_nonempty in H.
Qed.

Section Body.
Variable pd : config -> str -> res (config * option desc).
Hypothesis Hpd : forall c s r, inv c -> pd c s = Ok r -> good_res (okn s) c r.

Lemma parse_arg_ok c t a r : inv c -> a <> [] -> parse_arg pd c t a = Ok r -> good_res (fun c v => arg_ok c t v) c r.
Proof.
  intros Hi Hne H. destruct t; try (eapply parse_simple_ok; [..|exact H]; auto; discriminate).
  cbn [parse_arg] in H. bstep H r1 E. destruct r1 as [c1 [d|]].
  - destruct (Hpd _ _ _ Hi E) as [[W1 M1] [H1 H2]]. cbn [fst snd] in *.
    destruct (N.leb_spec 1024 (len (c_descs c1))); apply Ok_inj in H; subst.
    + split; [split; auto|]. split; [auto|discriminate].
    + destruct (wf_add_desc c1 d W1) as [W' He]; auto; [now apply H2|now apply H2|].
      split; [split; auto; eapply has_mods_ext; eauto|]. split; [eapply ext_trans; eauto|].
      intros v [= <-]. cbn. rewrite app_length. cbn. lia.
  - destruct (Hpd _ _ _ Hi E) as [[W1 M1] [H1 H2]]. apply Ok_inj in H; subst.
    split; [split; auto|]. split; [auto|discriminate].
Qed.
Lemma parse_args_ok ts0 : forall ts c vals r, inv c ->
  Forall2 (arg_ok c) ts0 vals -> Forall (fun ta => snd ta <> []) ts -> parse_args pd ts c vals = Ok r ->
  good_res (fun c vs => Forall2 (arg_ok c) (map fst (rev ts) ++ ts0) vs) c r.
Proof.
  intros ts. revert ts0. induction ts as [|[t a] ts IH]; intros ts0 c vals r Hi Hv Hne H; cbn [parse_args] in H.
  - apply Ok_inj in H; subst. split; auto. split; [apply ext_refl|]. intros vs [= <-]. exact Hv.
  - pose proof (Forall_inv Hne) as Ha. apply Forall_inv_tail in Hne.
    bstep H r1 E. apply (parse_arg_ok _ _ _ _ Hi Ha) in E as [E1 [E2 E3]]. destruct r1 as [c1 [v|]]; cbn [fst snd] in *.
    + assert (Hv1 : Forall2 (arg_ok c1) (t :: ts0) (v :: vals)).
      { constructor; [now apply E3|]. clear - Hv E2. induction Hv; constructor; auto.
        eapply arg_ok_ext; eauto. }
      apply (IH (t :: ts0) c1) in H; auto. destruct H as [H1 [H2 H3]]. split; auto.
      split; [eapply ext_trans; eauto|]. intros vs Hvs. cbn [rev]. rewrite map_app. cbn [map fst].
      rewrite <- app_assoc. cbn [app]. now apply H3.
    + apply Ok_inj in H; subst. split; auto. split; [auto|discriminate].
Qed.
Lemma parse_call_ok c fn (args : list str) r s : inv c -> Forall (fun a => a <> []) args ->
  parse_call pd c fn args = Ok r -> good_res (okn s) c r.
Proof.
  intros Hi Hne H. unfold parse_call in H.
  assert (Hno : good_res (okn s) c (c, None)) by (split; auto; split; [apply ext_refl|discriminate]).
  destruct (find_action actions fn) as [[o ts]|] eqn:Ea; [|apply Ok_inj in H; subst; auto].
  destruct (Nat.eqb_spec (length args) (length ts)); cbn [negb] in H; [|apply Ok_inj in H; subst; auto].
  bstep H r1 E. destruct r1 as [c1 vals]. apply Ok_inj in H; subst.
  eapply (parse_args_ok []) in E; [|exact Hi|constructor|].
  2: { apply Forall_forall. intros [t a] Hin. apply in_rev in Hin. apply in_combine_r in Hin.
       rewrite Forall_forall in Hne. now apply Hne. }
  destruct E as [E1 [E2 E3]]. cbn [fst snd] in *. split; auto. split; auto.
  cbn [fst snd]. intros d Hd. destruct vals as [vs|]; [|discriminate]. injection Hd as <-.
  specialize (E3 vs eq_refl). rewrite rev_involutive, app_nil_r in E3.
  eapply build_okn; eauto.
  replace ts with (map fst (combine ts args)); auto.
  clear - e. revert args e. induction ts; destruct args; cbn; intros; auto; try discriminate.
  f_equal. auto.
Qed.
Lemma parse_body_ok c s r : inv c -> parse_body pd c s = Ok r -> good_res (okn s) c r.
Proof.
  intros Hi H. unfold parse_body in H.
  assert (Hc : forall o, (forall d, o = Some d -> okn s c d) -> good_res (okn s) c (c, o)).
  { intros o Ho. split; auto. split; [apply ext_refl|auto]. }
  assert (Hno : good_res (okn s) c (c, None)) by (apply Hc; discriminate).
  destruct s as [|x s'] eqn:Es; [apply Ok_inj in H; subst; apply Hc; intros d [= <-]; split; [exact I|congruence]|].
  rewrite <- Es in *. clear Es.
  destruct (parse_key_sequence s) as [[code mods]|].
  - destruct (mod_layer_name code) as [ln|] eqn:El.
    + apply mod_layer_in in El. destruct Hi as [W M]. destruct (M _ El) as [i [Ei Hl]].
      rewrite Ei in H. apply Ok_inj in H; subst. apply Hc. intros d [= <-]. split; [exact Hl|discriminate].
    + apply Ok_inj in H; subst. apply Hc. intros d [= <-]. split; [exact I|discriminate].
  - destruct (parse_command s) as [| |cmd].
    + bstep H o E. destruct o as [| |m].
      * bstep H o2 E2. destruct o2 as [[fn args]|]; [|apply Ok_inj in H; subst; auto].
        bstep H o3 E3. destruct o3 as [[fn2 args2]|]; [|apply Ok_inj in H; subst; auto].
        eapply parse_call_ok; [exact Hi| |exact H]. eapply lettermod_args; eauto.
      * apply Ok_inj in H; subst; auto.
      * destruct (Nat.leb_spec 256 (length (c_macros c))); apply Ok_inj in H; subst; auto.
        destruct Hi as [W M]. destruct (wf_add_macro c m W) as [W' He]; auto.
        split; [split; auto; eapply has_mods_ext; eauto|]. split; auto. intros d [= <-]. split; [|discriminate].
        cbn. rewrite app_length. cbn. lia.
    + apply Ok_inj in H; subst; auto.
    + destruct (Nat.leb_spec 64 (length (c_cmds c))); apply Ok_inj in H; subst; auto.
      destruct Hi as [W M]. destruct (wf_add_cmd c cmd W) as [W' He]; auto.
      split; [split; auto; eapply has_mods_ext; eauto|]. split; auto. intros d [= <-]. split; [|discriminate].
      cbn. rewrite app_length. cbn. lia.
Qed.
End Body.

Lemma parse_desc_ok f : forall c s r, inv c -> parse_desc f c s = Ok r -> good_res (okn s) c r.
Proof.
  induction f as [|f IH]; intros c s r Hi H; [discriminate|]. rewrite parse_desc_S in H.
  eapply parse_body_ok; eauto.
Qed.

(* ---- layers ------------------------------------------------------------------------ *)
Lemma chord_codes_len : forall toks acc keys, length acc <= 8 -> chord_codes toks acc = Some keys ->
  length keys <= 8.
Proof.
  induction toks as [|t r IH]; cbn [chord_codes]; intros acc keys Ha H.
  - now injection H as <-.
  - destruct (_ =? 0)%N; [discriminate|]. destruct (Nat.leb_spec 8 (length acc)); [discriminate|].
    apply IH in H; auto. rewrite app_length. cbn. lia.
Qed.
Lemma chord_codes_keys (L : forall s, (lookup_keycode s < 256)%N) : forall toks acc keys, (forall x, In x acc -> (0 < x < 256)%N) -> chord_codes toks acc = Some keys ->
  forall x, In x keys -> (0 < x < 256)%N.
Proof.
  induction toks as [|t r IH]; cbn [chord_codes]; intros acc keys Ha H.
  - now injection H as <-.
  - destruct (N.eqb_spec (lookup_keycode t) 0); [discriminate|]. destruct (Nat.leb_spec 8 (length acc)); [discriminate|].
    apply (IH _ _) with (2 := H). intros x Hx. apply in_app_iff in Hx as [Hx|[<-|[]]]; [now apply Ha|]. specialize (L t). lia.
Qed.
Lemma lookup_chord_lt keys : forall chs i j, lookup_chord_from chs keys i = Some j -> i <= j < i + length chs.
Proof.
  induction chs as [|c r IH]; cbn [lookup_chord_from length]; intros i j H; [discriminate|].
  destruct (forallb _ _); [injection H as <-; lia|]. apply IH in H. lia.
Qed.

Lemma lookup_keycode_lt s : (lookup_keycode s < 256)%N.
Proof.
  assert (G2 : forall tbl i, (lookup_keycode_from tbl i s = 0 \/ lookup_keycode_from tbl i s < i + N.of_nat (length tbl))%N).
  { induction tbl as [|[[nm alt] sh] r IH]; cbn [lookup_keycode_from length]; intros i; [now left|].
    pose proof (IH (i + 1)%N). destruct nm; [|lia]. destruct (_ || _); lia. }
  unfold lookup_keycode. destruct (G2 keycode_table 0%N) as [->|H]; [lia|].
  replace (N.of_nat (length keycode_table)) with 256%N in H by (vm_compute; reflexivity). lia.
Qed.
Lemma set_layer_entry_ok c l key d l' : wf_layer c l -> okd c d ->
  set_layer_entry (c_aliases c) l key d = Some l' ->
  wf_layer c l' /\ ly_name l' = ly_name l /\ ly_type l' = ly_type l /\ ly_const l' = ly_const l
  /\ ly_mods l' = ly_mods l.
Proof.
  intros [H1 H2 H3 H4 H5 H6] Hd H. unfold set_layer_entry in H.
  destruct (has_char 43 key).
  - destruct (chord_codes _ _) as [keys|] eqn:Ek; [|discriminate].
    pose proof (chord_codes_keys lookup_keycode_lt _ _ _ (fun x (F : In x []) => match F with end) Ek) as Ks.
    apply chord_codes_len in Ek; [|cbn; lia].
    destruct (lookup_chord_from _ _ _) as [i|] eqn:Ei.
    + injection H as <-. repeat split; auto; cbn [ly_chords ly_keymap ly_const set_ly_chords]; try apply H4.
      * now rewrite upd_length.
      * apply In_upd in H as [->|Hi]; [|now apply H3]. cbn [ch_keys].
        apply lookup_chord_lt in Ei. apply H3, nth_In. lia.
      * apply In_upd in H as [->|Hi]; [|now apply H3]. exact Hd.
      * apply In_upd in H as [->|Hi]; [|now apply (H6 ch)]. apply lookup_chord_lt in Ei. apply (H6 (nth i (ly_chords l) zero_chord)); [apply nth_In; lia|exact H0].
      * apply In_upd in H as [->|Hi]; [|now apply (H6 ch)]. apply lookup_chord_lt in Ei. apply (H6 (nth i (ly_chords l) zero_chord)); [apply nth_In; lia|exact H0].
    + destruct (Nat.ltb_spec (length (ly_chords l)) 64); [|discriminate]. injection H as <-.
      repeat split; auto; cbn [ly_chords ly_keymap ly_const set_ly_chords]; try apply H4.
      * rewrite app_length. cbn. lia.
      * apply in_app_iff in H as [H|[<-|[]]]; [now apply H3|exact Ek].
      * apply in_app_iff in H as [H|[<-|[]]]; [now apply H3|exact Hd].
      * apply in_app_iff in H as [H|[<-|[]]]; [now apply (H6 ch)|now apply Ks].
      * apply in_app_iff in H as [H|[<-|[]]]; [now apply (H6 ch)|now apply Ks].
  - destruct (existsb _ _).
    + injection H as <-. repeat split; auto; cbn [ly_chords ly_keymap ly_const set_ly_keymap]; try apply H4; try apply H3; auto.
      * intros code. destruct (_ && _); auto.
      * intros code Hc. destruct (N.ltb_spec code 256); [lia|]. cbn [andb]. auto.
      * now apply (H6 ch).
      * now apply (H6 ch).
    + destruct (_ =? 0)%N; [discriminate|]. injection H as <-.
      repeat split; auto; cbn [ly_chords ly_keymap ly_const set_ly_keymap]; try apply H4; try apply H3; auto.
      * intros code. unfold fupd. destruct (_ =? _)%N; auto.
      * intros code Hc. unfold fupd. pose proof (lookup_keycode_lt key).
        destruct (N.eqb_spec code (lookup_keycode key)); [lia|auto].
      * now apply (H6 ch).
      * now apply (H6 ch).
Qed.

(* replacing a layer by one of the same kind *)
Lemma upd_layers_ref c idx l' : idx < length (c_layers c) ->
  ly_type l' = ly_type (nth idx (c_layers c) zero_layer) ->
  forall i, (layer_ref c i <-> layer_ref (set_c_layers (upd idx l' (c_layers c)) c) i)
            /\ (layout_ref c i <-> layout_ref (set_c_layers (upd idx l' (c_layers c)) c) i).
Proof.
  intros Hi Ht i.
  assert (E : ly_type (nth i (upd idx l' (c_layers c)) zero_layer) = ly_type (nth i (c_layers c) zero_layer)).
  { destruct (Nat.eq_dec i idx) as [->|Hn]; [now rewrite nth_upd_same|rewrite nth_upd_other by congruence; reflexivity]. }
  unfold layer_ref, layout_ref. cbn [c_layers set_c_layers]. rewrite upd_length, E. tauto.
Qed.
Lemma ok_desc_refs c c' nd nm nc d :
  (forall i, (layer_ref c i -> layer_ref c' i) /\ (layout_ref c i -> layout_ref c' i)) ->
  ok_desc c nd nm nc d -> ok_desc c' nd nm nc d.
Proof. intros H. destruct d; cbn; try tauto; try (intros; split; intuition; now apply H); try apply H. Qed.

Lemma wf_refs c c' : wf_config c ->
  (forall i, (layer_ref c i -> layer_ref c' i) /\ (layout_ref c i -> layout_ref c' i)) ->
  c_descs c' = c_descs c -> c_macros c' = c_macros c -> c_cmds c' = c_cmds c ->
  length (c_layers c) <= length (c_layers c') <= 32 -> length (c_ids c') <= 64 ->
  ly_type (nth 0 (c_layers c') zero_layer) = LLayout ->
  (forall l, In l (c_layers c') -> wf_layer c' l) -> wf_config c'.
Proof.
  intros [W1 W2 W3 W4 W5 W6 W7 W8 W9] HR E1 E2 E3 HL Hids H0 Hl.
  constructor; rewrite ?E1, ?E2, ?E3; auto; try lia.
  intros i Hi. rewrite ?E1, ?E2, ?E3 in *. split; [|now apply W6]. apply (ok_desc_refs c); [exact HR|]. now apply W6.
Qed.
Lemma wf_layer_refs c c' l :
  (forall i, (layer_ref c i -> layer_ref c' i) /\ (layout_ref c i -> layout_ref c' i)) ->
  c_descs c' = c_descs c -> c_macros c' = c_macros c -> c_cmds c' = c_cmds c ->
  length (c_layers c) <= length (c_layers c') -> wf_layer c l -> wf_layer c' l.
Proof.
  intros HR E1 E2 E3 HL [H1 H2 H3 H4 H6]. constructor; rewrite ?E1, ?E2, ?E3; auto.
  - intros code. apply (ok_desc_refs c); auto.
  - intros ch Hc. rewrite ?E1, ?E2, ?E3. destruct (H3 ch Hc). split; auto. apply (ok_desc_refs c); auto.
  - destruct H4 as [H4 H5]. split; auto. intros j Hj. apply H5 in Hj. lia.
Qed.

Lemma layer_index_upd name l' : forall ls idx i, ly_name l' = ly_name (nth idx ls zero_layer) ->
  layer_index_from (upd idx l' ls) name i = layer_index_from ls name i.
Proof.
  induction ls as [|l r IH]; destruct idx as [|idx]; cbn [upd layer_index_from nth]; intros i H; auto.
  - now rewrite H.
  - now rewrite (IH _ _ H).
Qed.

Lemma inv_upd_layer c idx l' : inv c -> idx < length (c_layers c) -> wf_layer c l' ->
  ly_name l' = ly_name (nth idx (c_layers c) zero_layer) ->
  ly_type l' = ly_type (nth idx (c_layers c) zero_layer) ->
  inv (set_c_layers (upd idx l' (c_layers c)) c).
Proof.
  intros [W M] Hi Hl Hn Ht.
  pose proof (upd_layers_ref c idx l' Hi Ht) as HR.
  set (c' := set_c_layers _ c) in *.
  assert (HR' : forall i, (layer_ref c i -> layer_ref c' i) /\ (layout_ref c i -> layout_ref c' i))
    by (intros i; split; apply HR).
  assert (HL : length (c_layers c') = length (c_layers c)) by apply upd_length.
  split.
  - apply (wf_refs c); auto; try reflexivity; rewrite ?HL.
    + pose proof (wf_layers_max _ W). lia.
    + apply (wf_ids_max _ W).
    + cbn [c' c_layers set_c_layers]. destruct idx.
      * rewrite nth_upd_same by auto. rewrite Ht. apply W.
      * rewrite nth_upd_other by auto. apply W.
    + intros l Hin. apply (wf_layer_refs c); auto; try reflexivity; [lia|].
      cbn [c' c_layers set_c_layers] in Hin. apply In_upd in Hin as [->|Hin]; auto.
      now apply (wf_layers _ W).
  - intros n Hin. destruct (M n Hin) as [i [H1 H2]]. exists i. split; [|now apply HR'].
    unfold config_get_layer_index in *. cbn [c' c_layers set_c_layers]. rewrite layer_index_upd; auto.
Qed.

Lemma config_add_entry_ok c exp c' ok : inv c -> config_add_entry c exp = Ok (c', ok) -> inv c'.
Proof.
  intros Hi H. unfold config_add_entry in H.
  destruct (N.leb _ _); [injection H as <- <-; auto|].
  destruct (match find_char 46 exp 0 with
       | Some (S d) =>
           if match find_char 40 exp 0 with
              | Some p => Nat.ltb (S d) p
              | None => true
              end
           then (firstn (S d) exp, skipn (S (S d)) exp)
           else (bs "main", exp)
       | _ => (bs "main", exp)
       end) as [lname s].
  destruct (parse_kvp s) as [key val].
  destruct (config_get_layer_index c lname) as [idx|] eqn:Ei; [|injection H as <- <-; auto].
  bstep H r E. destruct r as [c1 d].
  assert (G : good_res okd c (c1, d)).
  { destruct val as [v|].
    - destruct (parse_desc_ok _ _ _ _ Hi E) as [P1 [P2 P3]]. split; [exact P1|]. split; [exact P2|]. intros d' Hd. now apply P3.
    - injection E as <- <-. split; auto. split; [apply ext_refl|]. intros d' [= <-]. exact I. }
  destruct G as [G1 [G2 G3]]. cbn [fst snd] in *.
  destruct d as [d|]; [|injection H as <- <-; auto].
  apply layer_index_lt in Ei.
  destruct (set_layer_entry _ _ _ _) as [l|] eqn:El; injection H as <- <-; auto.
  assert (Hlt : idx < length (c_layers c1)) by (destruct G2 as [-> _]; auto).
  apply (set_layer_entry_ok c1) in El as [L1 [L2 [L3 _]]]; auto.
  - apply inv_upd_layer; auto.
  - apply (wf_layers _ (proj1 G1)). now apply nth_In.
Qed.

(* ---- adding a layer --------------------------------------------------------------- *)
Lemma layer_index_app name l : forall ls i j, layer_index_from ls name i = Some j ->
  layer_index_from (ls ++ [l]) name i = Some j.
Proof.
  induction ls as [|x r IH]; cbn [layer_index_from app]; intros i j H; [discriminate|].
  destruct (str_eqb _ _); auto.
Qed.
Lemma constituents_ok c : forall names acc cs, Forall (fun j => j < length (c_layers c)) acc ->
  length acc <= 8 -> constituents c names acc = Ok (Some cs) ->
  Forall (fun j => j < length (c_layers c)) cs /\ length cs <= 8.
Proof.
  induction names as [|n r IH]; cbn [constituents]; intros acc cs Ha Hl H.
  - injection H as <-. auto.
  - destruct (config_get_layer_index c n) as [i|] eqn:E; [|discriminate].
    destruct (Nat.ltb_spec (length acc) 8); [|discriminate].
    apply IH in H; auto.
    + apply Forall_app. split; auto. constructor; auto. now apply layer_index_lt in E.
    + rewrite app_length. cbn. lia.
Qed.
Lemma new_layer_ok s c l : new_layer s c = Ok (Some l) ->
  ly_keymap l = (fun _ => DNone) /\ ly_chords l = [] /\ length (ly_const l) <= 8
  /\ Forall (fun j => j < length (c_layers c)) (ly_const l).
Proof.
  unfold new_layer. intros H. destruct (tokens 58 s) as [|name rest]; [discriminate|].
  destruct (has_char 43 name).
  - destruct rest; [|discriminate]. bstep H o E. destruct o as [cs|]; [|discriminate].
    injection H as <-. apply constituents_ok in E; [|constructor|cbn; lia]. cbn. tauto.
  - destruct rest as [|t r].
    + injection H as <-. cbn. repeat split; auto. lia.
    + destruct (str_eqb t _); [injection H as <-; cbn; repeat split; auto; lia|].
      destruct (parse_modset t); injection H as <-; cbn; repeat split; auto; lia.
Qed.
Lemma config_add_layer_ok c s c' : inv c -> config_add_layer c s = Ok c' -> inv c'.
Proof.
  intros Hi H. unfold config_add_layer in H.
  destruct (Nat.leb 65 (length s)); [apply Ok_inj in H; subst; auto|].
  destruct (match tokens 58 s with [] => None | n :: _ => config_get_layer_index c n end);
    [apply Ok_inj in H; subst; auto|].
  destruct (Nat.leb_spec 32 (length (c_layers c))); [apply Ok_inj in H; subst; auto|].
  bstep H o E. destruct o as [l|]; apply Ok_inj in H; subst; auto.
  apply new_layer_ok in E as [E1 [E2 [E3 E4]]].
  destruct Hi as [W M]. set (c' := set_c_layers (c_layers c ++ [l]) c).
  assert (HR : forall i, (layer_ref c i -> layer_ref c' i) /\ (layout_ref c i -> layout_ref c' i)).
  { intros i. unfold layer_ref, layout_ref. cbn [c' c_layers set_c_layers]. rewrite app_length.
    split; intros [G1 G2]; (split; [lia|]); rewrite app_nth1 by auto; exact G2. }
  assert (HL : length (c_layers c') = S (length (c_layers c))).
  { cbn [c' c_layers set_c_layers]. rewrite app_length. cbn. lia. }
  split.
  - apply (wf_refs c); auto; try reflexivity.
    + lia.
    + apply (wf_ids_max _ W).
    + cbn [c' c_layers set_c_layers]. rewrite app_nth1 by apply W. apply W.
    + intros l' Hin. cbn [c' c_layers set_c_layers] in Hin. apply in_app_iff in Hin as [Hin|[<-|[]]].
      * apply (wf_layer_refs c); auto; try reflexivity; [lia|]. now apply (wf_layers _ W).
      * constructor; rewrite ?E1, ?E2; cbn; auto; try lia; try tauto.
        split; auto. intros j Hj. rewrite Forall_forall in E4. apply E4 in Hj.
        fold (c_layers c'). rewrite app_length. lia.
  - intros n Hn. destruct (M n Hn) as [i [G1 G2]]. exists i. split; [|now apply HR].
    now apply layer_index_app.
Qed.

(* ---- sections ---------------------------------------------------------------------- *)
Lemma inv_scalar c c' : inv c -> same_tables c c' -> length (c_ids c') <= 64 -> inv c'.
Proof.
  intros [W M] [E1 [E2 [E3 E4]]] Hids.
  assert (HR : forall i, (layer_ref c i -> layer_ref c' i) /\ (layout_ref c i -> layout_ref c' i)).
  { intros i. unfold layer_ref, layout_ref. rewrite E1. auto. }
  split.
  - apply (wf_refs c); auto; rewrite ?E1; auto; try apply W.
    + pose proof (wf_layers_max _ W). lia.
    + intros l Hl. apply (wf_layer_refs c); auto; [rewrite E1; lia|]. now apply (wf_layers _ W).
  - intros n Hn. destruct (M n Hn) as [i [G1 G2]]. exists i. split; [|now apply HR].
    unfold config_get_layer_index in *. now rewrite E1.
Qed.
Lemma parse_global_ok c e c' : inv c -> parse_global_entry c e = Ok c' -> inv c'.
Proof.
  intros Hi H. destruct e as [key val]. unfold parse_global_entry in H.
  repeat match type of H with (if ?b then _ else _) = _ => destruct b end;
    try (apply Ok_inj in H; subst; auto; fail);
    destruct val; try discriminate; apply Ok_inj in H; subst;
    (apply (inv_scalar c); [exact Hi|repeat split|apply Hi]).
Qed.
Lemma parse_id_ok c e c' : inv c -> parse_id_entry c e = Ok c' -> inv c'.
Proof.
  intros Hi H.
  assert (G : forall id f c', add_id c id f = Ok c' -> inv c').
  { intros id f c2 H2. unfold add_id in H2. destruct (Nat.ltb_spec (length (c_ids c)) 64); [|discriminate].
    apply Ok_inj in H2; subst. apply (inv_scalar c); [exact Hi|repeat split|].
    cbn. rewrite app_length. cbn. lia. }
  unfold parse_id_entry in H.
  repeat match type of H with (if ?b then _ else _) = _ => destruct b end; try (eapply G; eauto; fail).
  - apply Ok_inj in H; subst. apply (inv_scalar c); [exact Hi|repeat split|apply Hi].
  - apply Ok_inj in H; subst; auto.
Qed.
Lemma parse_alias_ok c e c' : inv c -> parse_alias_entry c e = Ok c' -> inv c'.
Proof.
  intros Hi H. destruct e as [key val]. unfold parse_alias_entry in H.
  destruct (_ =? 0)%N; [apply Ok_inj in H; subst; auto|].
  destruct val as [name|]; [|discriminate].
  destruct (Nat.leb _ _); [apply Ok_inj in H; subst; auto|].
  apply Ok_inj in H; subst.
  match goal with |- inv (set_c_aliases _ ?x) => set (c1 := x) end.
  assert (Hc1 : inv c1).
  { subst c1. destruct (_ =? 0)%N; auto. destruct (c_layers c) as [|l r] eqn:El; auto.
    change (inv (set_c_layers (upd 0 (set_ly_keymap (fupd (ly_keymap l) (lookup_keycode key)
              (DKey (lookup_keycode name) 0)) l) (l :: r)) c)).
    rewrite <- El. apply inv_upd_layer; auto.
    - rewrite El. cbn. lia.
    - assert (HL : wf_layer c l) by (apply (wf_layers _ (proj1 Hi)); rewrite El; cbn; auto).
      destruct HL as [H1 H2 H3 H4 H5]. constructor; auto; intros code; cbn [ly_keymap set_ly_keymap]; unfold fupd.
      + destruct (_ =? _)%N; [exact I|apply H1].
      + intros Hc. pose proof (lookup_keycode_lt key).
        destruct (N.eqb_spec code (lookup_keycode key)); [lia|auto].
    - now rewrite El.
    - now rewrite El. }
  apply (inv_scalar c1); [exact Hc1|repeat split|apply Hc1].
Qed.
Lemma foldr_res_ok {A} (f : config -> A -> res config) :
  (forall c e c', inv c -> f c e = Ok c' -> inv c') ->
  forall es c c', inv c -> foldr_res f es c = Ok c' -> inv c'.
Proof.
  intros Hf. induction es as [|e r IH]; cbn [foldr_res]; intros c c' Hi H.
  - apply Ok_inj in H; now subst.
  - bstep H c1 E. eauto.
Qed.
Lemma pass1_ok c s c' : inv c -> pass1_section c s = Ok c' -> inv c'.
Proof.
  intros Hi H. unfold pass1_section in H.
  destruct (str_eqb _ _); [eapply foldr_res_ok; eauto using parse_id_ok|].
  destruct (str_eqb _ _); [eapply foldr_res_ok; eauto using parse_alias_ok|].
  destruct (str_eqb _ _); [eapply foldr_res_ok; eauto using parse_global_ok|].
  eapply config_add_layer_ok; eauto.
Qed.
Lemma pass2_ok c s c' : inv c -> pass2_section c s = Ok c' -> inv c'.
Proof.
  intros Hi H. unfold pass2_section in H. destruct (_ || _); [apply Ok_inj in H; now subst|].
  eapply foldr_res_ok; [|exact Hi|exact H].
  intros c0 e c1 Hi0 H0. unfold pass2_entry in H0. destruct (snd e); [|apply Ok_inj in H0; now subst].
  destruct (hd_error _); [|discriminate]. bstep H0 r E. destruct r as [c2 ok]. apply Ok_inj in H0; subst.
  eapply config_add_entry_ok; eauto.
Qed.
Lemma parse_string_ok c text c' : inv c -> config_parse_string c text = Ok (Some c') -> inv c'.
Proof.
  intros Hi H. unfold config_parse_string in H. bstep H o E. destruct o as [secs|]; [|discriminate].
  bstep H c1 E1. bstep H c2 E2. injection H as <-.
  eapply foldr_res_ok; [exact pass2_ok| |exact E2].
  eapply foldr_res_ok; [exact pass1_ok|exact Hi|exact E1].
Qed.

(* ---- config_init -------------------------------------------------------------------- *)
Definition default_secs : list section := Eval vm_compute in
  match ini_parse_string default_config_text with Ok (Some s) => s | _ => [] end.
Lemma default_secs_ok : ini_parse_string default_config_text = Ok (Some default_secs).
Proof. vm_compute. reflexivity. Qed.

(* the layers after the first pass *)
Definition blank (l : layer) : bool :=
  match ly_chords l, ly_const l with [], [] => true | _, _ => false end.
Lemma pass1_default : exists c1, foldr_res pass1_section default_secs zero_config = Ok c1 /\ inv c1.
Proof.
  eexists. split; [vm_compute; reflexivity|].
  assert (HL : forall i, (0 < i < 6) -> layer_ref
     (match foldr_res pass1_section default_secs zero_config with Ok c => c | _ => zero_config end) i).
  { intros i Hi. vm_compute. do 6 (destruct i as [|i]; [try lia; repeat split; try lia; try discriminate|]). lia. }
  split.
  - constructor; cbn; try lia; auto.
    intros l Hl. repeat destruct Hl as [<-|Hl]; try (destruct Hl);
      (constructor; cbn; auto; try lia; try tauto; split; [lia|tauto]).
  - intros n Hn. vm_compute in HL.
    repeat destruct Hn as [<-|Hn]; try (destruct Hn); vm_compute;
      eexists; (split; [reflexivity|]); apply HL; lia.
Qed.
Lemma config_init_ok c : config_init = Ok c -> inv c.
Proof.
  unfold config_init, config_parse_string. rewrite default_secs_ok. cbn [bind].
  destruct pass1_default as [c1 [E Hi]]. rewrite E. cbn [bind].
  intros H. bstep H o E1. bstep E1 c2 E2. apply Ok_inj in E1. subst o. apply Ok_inj in H. subst c.
  assert (H2 : inv c2) by (eapply foldr_res_ok; [exact pass2_ok|exact Hi|exact E2]).
  apply (inv_scalar c2); [exact H2|repeat split|apply H2].
Qed.

Theorem config_parse_inv text c : config_parse text = Ok (Some c) -> inv c.
Proof.
  unfold config_parse. intros H. bstep H c0 E. eapply parse_string_ok; [|exact H].
  now apply config_init_ok.
Qed.
