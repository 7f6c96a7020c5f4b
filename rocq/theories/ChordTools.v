(* Deciding the premises about chords on concrete states, for the examples. *)
From Verif Require Import Base Lib Keys Types MacroExec Kbd Config SpecMods SpecLookup Engine LookupProofs SpecChord ChordProofs.
Local Open Scope nat_scope.
Local Open Scope list_scope.
Local Notation length := List.length.

Definition verdict (k : kbd) (evs : list kev) : ccres * option (nat * nat) :=
  let r := check_chord_match (set_k_timeouts (k_timeouts k) (set_k_chord (mkCh evs None 0 0 CsInactive) k)) in
  (fst r, h_match (k_chord (snd r))).
Definition timesb (k : kbd) : Prop := forall i, (0 <= l_time (k_ls k i))%Z.
Definition pressb (e : kev) : bool := ev_pressed e && negb (ev_code e =? 0)%N.
Lemma pressb_ok e : pressb e = true -> press e.
Proof. unfold pressb. intros H. apply andb_true_iff in H as [H1 H2]. split; [exact H1|]. apply negb_true_iff in H2. now apply N.eqb_neq. Qed.
Inductive verdict_is (k : kbd) (evs : list kev) : ccres * option (nat * nat) -> Prop :=
| vi_none : ~ begun k evs -> unfinished k evs -> verdict_is k evs (CC0, None)
| vi_part : begun k evs -> unfinished k evs -> verdict_is k evs (CC1, None)
| vi_full i ch ci : ~ begun k evs -> winner k evs i ch -> nth_error (ly_chords (layer_of k i)) ci = Some ch ->
    verdict_is k evs (CC2, Some (i, ci))
| vi_both i ch ci : begun k evs -> winner k evs i ch -> nth_error (ly_chords (layer_of k i)) ci = Some ch ->
    verdict_is k evs (CC3, Some (i, ci)).
Lemma verdict_ok k evs : timesb k -> forallb pressb evs = true -> evs <> [] -> verdict_is k evs (verdict k evs).
Proof.
  intros Ht Hp Hn. unfold verdict. set (k0 := set_k_timeouts _ _).
  assert (C : checked k0 evs (check_chord_match k0)).
  { apply (check_spec k0); [exact Ht| |exact Hn]. apply Forall_forall. intros e He. apply pressb_ok.
    rewrite forallb_forall in Hp. now apply Hp. }
  inversion C as [B U X|B U X|i ch ci B U N0 X|i ch ci B U N0 X]; cbn [fst snd].
  - apply vi_none; [exact B|exact U].
  - apply vi_part; [exact B|exact U].
  - eapply vi_full; [exact B|exact U|exact N0].
  - eapply vi_both; [exact B|exact U|exact N0].
Qed.
Definition begunb (k : kbd) (evs : list kev) : bool := match fst (verdict k evs) with CC1 | CC3 => true | _ => false end.
Definition matchb (k : kbd) (evs : list kev) : option (nat * nat) := snd (verdict k evs).
(* every non-empty first part *)
Definition parts (evs : list kev) : list (list kev) := map (fun n => firstn n evs) (seq 1 (length evs)).
Lemma parts_spec evs p q : evs = p ++ q -> p <> [] -> In p (parts evs).
Proof.
  intros -> Hp. unfold parts. apply in_map_iff. exists (length p). split.
  - rewrite firstn_app, Nat.sub_diag, firstn_all. cbn [firstn]. apply app_nil_r.
  - apply in_seq. rewrite app_length. destruct p; [congruence|cbn; lia].
Qed.
Section Verdicts.
Variable k : kbd.
Hypothesis Ht : timesb k.
Lemma begunb_ok evs : forallb pressb evs = true -> evs <> [] -> if begunb k evs then begun k evs else ~ begun k evs.
Proof. intros Hp Hn. unfold begunb. destruct (verdict_ok k evs Ht Hp Hn); cbn [fst]; auto. Qed.
Lemma matchb_ok evs : forallb pressb evs = true -> evs <> [] ->
  match matchb k evs with
  | None => unfinished k evs
  | Some (i, ci) => exists ch, nth_error (ly_chords (layer_of k i)) ci = Some ch /\ winner k evs i ch
  end.
Proof. intros Hp Hn. unfold matchb. destruct (verdict_ok k evs Ht Hp Hn); cbn [snd]; eauto. Qed.
Lemma pre_press evs p q : forallb pressb evs = true -> evs = p ++ q -> forallb pressb p = true.
Proof. intros H ->. rewrite forallb_app in H. now apply andb_true_iff in H as [H _]. Qed.
Definition hopefulb (evs : list kev) : bool := forallb pressb evs && forallb (begunb k) (parts evs).
Lemma hopefulb_ok evs : hopefulb evs = true -> hopeful k evs.
Proof.
  unfold hopefulb. intros H p q E Hp. apply andb_true_iff in H as [H1 H2]. rewrite forallb_forall in H2.
  pose proof (begunb_ok p (pre_press _ _ _ H1 E) Hp) as B. now rewrite (H2 p (parts_spec _ _ _ E Hp)) in B.
Qed.
Definition is_none {A} (o : option A) : bool := match o with None => true | _ => false end.
Definition none_completeb (evs : list kev) : bool := forallb pressb evs && forallb (fun p => is_none (matchb k p)) (parts evs).
Lemma none_completeb_ok evs : none_completeb evs = true -> none_complete k evs.
Proof.
  unfold none_completeb. intros H p q E Hp. apply andb_true_iff in H as [H1 H2]. rewrite forallb_forall in H2.
  pose proof (matchb_ok p (pre_press _ _ _ H1 E) Hp) as B. specialize (H2 p (parts_spec _ _ _ E Hp)).
  destruct (matchb k p); [discriminate|exact B].
Qed.
End Verdicts.
Definition chord_of (k : kbd) (i ci : nat) : chord := nth ci (ly_chords (layer_of k i)) (mkChord [] DNone).
Definition inclb (a b : list N) : bool := forallb (fun x => existsb (N.eqb x) b) a.
Lemma inclb_ok a b : inclb a b = false -> ~ incl a b.
Proof.
  unfold inclb. intros H C. assert (X : forallb (fun x => existsb (N.eqb x) b) a = true); [|congruence].
  apply forallb_forall. intros x Hx. apply existsb_exists. exists x. split; [now apply C|apply N.eqb_refl].
Qed.
Definition unambiguousb (k : kbd) (i ci : nat) : bool :=
  let ks := ch_keys (chord_of k i ci) in
  Nat.ltb i (nlayers k) && is_active k i && Nat.ltb ci (length (ly_chords (layer_of k i)))
  && negb (Nat.eqb (length ks) 0)
  && forallb (fun c => negb (inclb ks (ch_keys c)))
       (firstn ci (ly_chords (layer_of k i)) ++ skipn (S ci) (ly_chords (layer_of k i)))
  && forallb (fun j => Nat.eqb j i || negb (is_active k j) || forallb (fun c => negb (inclb ks (ch_keys c))) (ly_chords (layer_of k j)))
       (seq 0 (nlayers k)).
Lemma unambiguousb_ok k i ci : unambiguousb k i ci = true -> unambiguous k i (chord_of k i ci).
Proof.
  unfold unambiguousb. cbv zeta. rewrite !andb_true_iff. intros [[[[[H1 H2] H3] H4] H5] H6].
  apply Nat.ltb_lt in H1, H3. apply layer_active_spec in H2; [|exact H1]. split; [exact H2|]. split; [|split].
  - intros E. rewrite E in H4. discriminate H4.
  - exists (firstn ci (ly_chords (layer_of k i))), (skipn (S ci) (ly_chords (layer_of k i))). split.
    + unfold chord_of. clear -H3. revert ci H3. induction (ly_chords (layer_of k i)) as [|c l IH]; intros [|ci] H; cbn [length] in H; try lia.
      * reflexivity.
      * cbn [firstn skipn nth app]. f_equal. apply IH. lia.
    + apply Forall_forall. intros c Hc. rewrite forallb_forall in H5. apply H5 in Hc. apply negb_true_iff in Hc. now apply inclb_ok.
  - intros j c Hj [Ha Hc]. rewrite forallb_forall in H6.
    assert (Hl : j < nlayers k) by apply Ha. specialize (H6 j). rewrite in_seq in H6. specialize (H6 ltac:(lia)).
    apply layer_active_spec in Ha; [|exact Hl]. rewrite Ha in H6. apply Nat.eqb_neq in Hj. rewrite Hj in H6. cbn [negb orb] in H6.
    rewrite forallb_forall in H6. apply H6 in Hc. apply negb_true_iff in Hc. now apply inclb_ok.
Qed.
Definition freeb (k : kbd) (s : nat) : bool :=
  match nth_error (k_achords k) s with Some a => negb (ac_active a) | None => false end
  && forallb ac_active (firstn s (k_achords k)).
Lemma freeb_ok k s : freeb k s = true -> free_slot k s.
Proof.
  unfold freeb. rewrite andb_true_iff. intros [H1 H2]. split.
  - destruct (nth_error _ _) as [a|]; [|discriminate]. exists a. split; [reflexivity|]. now apply negb_true_iff in H1.
  - intros j a Hj Ha. rewrite forallb_forall in H2. apply H2. clear -Hj Ha. revert j s Hj Ha.
    induction (k_achords k) as [|c l IH]; intros [|j] [|s] Hj Ha; cbn in Ha |- *; try lia; try discriminate.
    + injection Ha as ->. now left.
    + right. apply (IH j s); [lia|exact Ha].
Qed.
Definition room_chordb (k : kbd) (s : nat) : bool := freeb k s && unheldb k (slot_code s) && roomb k.
Lemma room_chordb_ok k s : room_chordb k s = true -> room_for_chord k s.
Proof.
  unfold room_chordb. rewrite !andb_true_iff. intros [[H1 H2] H3].
  split; [now apply freeb_ok|]. split; [now apply unheldb_ok|now apply roomb_ok].
Qed.
