(* C71: devices that appear are noticed.  Whatever the division of the kernel's records into
   reads, the nodes whose names begin with "event" are opened once each, in order, and those
   that are devices of interest enter the table. *)
From Coq Require Import String Lia.
From Verif Require Import Base Client DevMon SpecMon.
Local Open Scope N_scope.
Local Open Scope list_scope.
Local Notation length := List.length.

Lemma le_len n v : length (le n v) = n.
Proof. revert v; induction n as [|n IH]; intro v; cbn [le length]; auto. Qed.
Lemma unle4 v : v < 4294967296 -> unle (le 4 v) = v.
Proof.
  intro H. cbn [le unle].
  pose proof (N.div_mod v 256 ltac:(lia)). pose proof (N.mod_lt v 256 ltac:(lia)).
  pose proof (N.div_mod (v / 256) 256 ltac:(lia)). pose proof (N.mod_lt (v / 256) 256 ltac:(lia)).
  pose proof (N.div_mod (v / 256 / 256) 256 ltac:(lia)). pose proof (N.mod_lt (v / 256 / 256) 256 ltac:(lia)).
  pose proof (N.div_mod (v / 256 / 256 / 256) 256 ltac:(lia)).
  pose proof (N.mod_lt (v / 256 / 256 / 256) 256 ltac:(lia)).
  assert (v / 256 / 256 / 256 / 256 = 0).
  { rewrite !N.div_div by lia. apply N.div_small. lia. }
  lia.
Qed.

Lemma string_at_name s rest : ~ In 0 s -> string_at (s ++ 0 :: rest) = Some s.
Proof.
  induction s as [|c s IH]; intro H; [reflexivity|]. cbn [app string_at].
  destruct (N.eqb_spec c 0) as [->|]; [exfalso; apply H; now left|].
  rewrite IH by (intro; apply H; now right). reflexivity.
Qed.
Lemma starts_at_name w : ~ In 0 w -> forall s rest, 
  (exists q, s = w ++ q /\ starts_at (s ++ 0 :: rest) w = Some true) \/
  ((forall q, s <> w ++ q) /\ starts_at (s ++ 0 :: rest) w = Some false).
Proof.
  induction w as [|x w IH]; intros Hw s rest; [left; exists s; auto|].
  destruct s as [|c s]; cbn [app starts_at].
  - right; split; [discriminate|]. destruct (N.eqb_spec 0 x) as [<-|]; auto.
    exfalso; apply Hw; now left.
  - destruct (N.eqb_spec c x) as [->|Hn].
    + destruct (IH ltac:(intro; apply Hw; now right) s rest) as [(q & -> & E)|(Hq & E)].
      * left; exists q; auto.
      * right; split; auto. intros q E'. injection E' as E'. now apply (Hq q).
    + right; split; auto. intros q E. injection E as E _. contradiction.
Qed.

Section Nodes.
Context {D : Type}.
Variable init : nat -> str -> option D.

Definition pending (m : mon) (rs : list record) : Prop :=
  exists pre rest, mn_buf m = pre ++ concat (map bytes_of rs) ++ rest /\ length pre = mn_ptr m /\
    mn_sz m = (length pre + length (concat (map bytes_of rs)))%nat /\ regular rs /\
    Nat.le (length (concat (map bytes_of rs))) 4096.

Lemma bytes_len r : length (bytes_of r) = (16 + length (name_field r))%nat.
Proof. unfold bytes_of. rewrite !app_length, !le_len. lia. Qed.

Lemma bytes_split r : bytes_of r =
  (le 4 (rc_wd r) ++ le 4 (rc_mask r) ++ le 4 (rc_cookie r)) ++ le 4 (N.of_nat (length (name_field r))) ++ name_field r.
Proof. unfold bytes_of. now rewrite <- !app_assoc. Qed.
Lemma skipn_exact {A} n (a b : list A) : length a = n -> skipn n (a ++ b) = b.
Proof. intros <-. now rewrite skipn_app, skipn_all, Nat.sub_diag. Qed.
Lemma firstn_exact {A} n (a b : list A) : length a = n -> firstn n (a ++ b) = a.
Proof. intros <-. now rewrite firstn_app, firstn_all, Nat.sub_diag, app_nil_r. Qed.

Lemma parse_one m r rs : pending m (r :: rs) ->
  exists m1, pending m1 rs /\ mn_reads m1 = mn_reads m /\
  (((forall s pad, rc_name r = Some (s, pad) -> forall q, s <> bs "event" ++ q) /\
    mn_tries m1 = mn_tries m /\ parse_tick init m = Again m1) \/
   (exists q pad, rc_name r = Some (bs "event" ++ q, pad) /\ mn_tries m1 = S (mn_tries m) /\
    parse_tick init m = match init (mn_tries m) (node_path (bs "event" ++ q)) with
                        | Some d => Got d m1 | None => Again m1 end)).
Proof.
  intros (pre & rest & Eb & Ep & Es & [Hr Hrs] & Hl).
  cbn [map concat] in Eb, Es, Hl. rewrite app_length in Es, Hl.
  pose proof (bytes_len r) as BL.
  assert (A : skipn (mn_ptr m) (mn_buf m) = bytes_of r ++ concat (map bytes_of rs) ++ rest).
  { rewrite Eb, <- Ep, skipn_app, skipn_all, Nat.sub_diag. cbn [app skipn]. now rewrite <- app_assoc. }
  set (tail := concat (map bytes_of rs) ++ rest) in *.
  assert (A1 : Nat.ltb (length (bytes_of r ++ tail)) 16 = false).
  { apply Nat.ltb_ge. rewrite app_length. lia. }
  assert (A2 : unle (firstn 4 (skipn 12 (bytes_of r ++ tail))) = N.of_nat (length (name_field r))).
  { rewrite (bytes_split r), <- app_assoc, skipn_exact by (rewrite !app_length, !le_len; reflexivity).
    rewrite <- app_assoc, firstn_exact by apply le_len. apply unle4. lia. }
  assert (A3 : skipn 16 (bytes_of r ++ tail) = name_field r ++ tail).
  { rewrite (bytes_split r), app_assoc, <- (app_assoc _ (name_field r) tail).
    apply skipn_exact. rewrite !app_length, !le_len. reflexivity. }
  set (p1 := (mn_ptr m + 16 + N.to_nat (N.of_nat (length (name_field r))))%nat).
  assert (P1 : forall t, pending (mkMon (mn_buf m) (mn_sz m) p1 t (mn_reads m)) rs).
  { intro t. exists (pre ++ bytes_of r), rest. cbn [mn_buf mn_sz mn_ptr].
    unfold p1. rewrite Nat2N.id, app_length.
    repeat split; auto; try lia. rewrite Eb. now rewrite <- !app_assoc. }
  unfold parse_tick. rewrite A, A1, A2, A3. fold p1.
  destruct Hr as [(s & pad & En & H0)|(En & r2 & rest' & -> & Hw)].
  - assert (N1 : name_field r ++ tail = s ++ 0 :: (repeat 0 pad ++ tail)).
    { unfold name_field. rewrite En. cbn [repeat]. now rewrite <- app_assoc. }
    rewrite N1.
    destruct (starts_at_name (bs "event") ltac:(vm_compute; intuition discriminate) s (repeat 0 pad ++ tail))
      as [(q & Eq & E)|(Hq & E)]; rewrite E.
    + rewrite string_at_name by assumption.
      exists (mkMon (mn_buf m) (mn_sz m) p1 (S (mn_tries m)) (mn_reads m)).
      split; [apply P1|]. split; [reflexivity|]. right. exists q, pad.
      rewrite <- Eq. repeat split; auto.
    + exists (mkMon (mn_buf m) (mn_sz m) p1 (mn_tries m) (mn_reads m)).
      split; [apply P1|]. split; [reflexivity|]. left. repeat split; auto.
      intros s' pad' E' q ->. rewrite En in E'. injection E' as E' _. now apply (Hq q).
  - exists (mkMon (mn_buf m) (mn_sz m) p1 (mn_tries m) (mn_reads m)).
    split; [apply P1|]. split; [reflexivity|]. left.
    split; [intros s pad E; congruence|]. split; [reflexivity|].
    assert (N1 : exists l, name_field r ++ tail = rc_wd r2 :: l).
    { unfold name_field. rewrite En. unfold tail. cbn [map concat app bytes_of].
      exists (tl (bytes_of r2) ++ concat (map bytes_of rest') ++ rest).
      unfold bytes_of at 1 2. cbn [le app tl]. rewrite N.mod_small by lia.
      now rewrite <- !app_assoc. }
    destruct N1 as [l ->].
    replace (starts_at (rc_wd r2 :: l) (bs "event")) with (Some false); [reflexivity|].
    cbn [bs starts_at]. change (Ascii.N_of_ascii _) with 101 at 1.
    destruct (N.eqb_spec (rc_wd r2) 101); [lia|reflexivity].
Qed.

(* Rounds of the loop up to the end, with the devices they yield *)
Inductive ticks : nat -> mon -> list D -> mon -> Prop :=
| ticks_stop m m' : tick init m = Stop m' -> ticks 1 m [] m'
| ticks_again k m m1 ds m' : tick init m = Again m1 -> ticks k m1 ds m' -> ticks (S k) m ds m'
| ticks_got k m m1 d ds m' : tick init m = Got d m1 -> ticks k m1 ds m' -> ticks (S k) m (d :: ds) m'.

Lemma ticks_read k m ds m' : ticks k m ds m' -> forall f, Nat.le k f ->
  match ds with
  | [] => devmon_read_device init f m = Ok (None, m')
  | d :: ds' => exists k1 m1, Nat.lt k1 k /\ devmon_read_device init f m = Ok (Some d, m1) /\ ticks k1 m1 ds' m'
  end.
Proof.
  intro H; induction H as [m m' E|k m m1 ds m' E H IH|k m m1 d ds m' E H IH]; intros f Hf;
    (destruct f as [|f]; [lia|]); cbn [devmon_read_device]; rewrite E; auto.
  - specialize (IH f ltac:(lia)). destruct ds; auto.
    destruct IH as (k1 & m2 & Hk & E2 & Ht). exists k1, m2. repeat split; auto.
  - exists k, m1. repeat split; auto.
Qed.
Lemma ticks_all : forall f k m ds m', ticks k m ds m' -> Nat.le k f -> new_devices init f m = Ok (ds, m').
Proof.
  induction f as [|f IH]; intros k m ds m' H Hf; [inversion H; lia|].
  cbn [new_devices]. pose proof (ticks_read _ _ _ _ H (S f) Hf) as R. destruct ds as [|d ds].
  - rewrite R. reflexivity.
  - destruct R as (k1 & m1 & Hk & E & Ht). rewrite E. cbn [bind].
    rewrite (IH k1 m1 ds m' Ht ltac:(lia)). reflexivity.
Qed.

Lemma opened_cons_other n (r : record) l ds n' :
  (forall s pad, rc_name r = Some (s, pad) -> forall q, s <> bs "event" ++ q) ->
  opened init n (names_of (r :: l)) ds n' -> opened init n (names_of l) ds n'.
Proof.
  unfold names_of. cbn [flat_map]. destruct (rc_name r) as [[s pad]|]; cbn [app]; auto.
  intros H Ho. specialize (H s pad eq_refl).
  inversion Ho as [|? ? ? ? ? Hn Hr|? r0 ? d ? ? Hi Hr Er|? r0 ? ? ? Hi Hr Er]; subst; auto;
    exfalso; now apply (H r0).
Qed.
Lemma opened_cons_event n (r : record) q pad l ds n' :
  rc_name r = Some (bs "event" ++ q, pad) -> opened init n (names_of (r :: l)) ds n' ->
  (exists d ds', ds = d :: ds' /\ init n (node_path (bs "event" ++ q)) = Some d /\ opened init (S n) (names_of l) ds' n')
  \/ (init n (node_path (bs "event" ++ q)) = None /\ opened init (S n) (names_of l) ds n').
Proof.
  intros E Ho. unfold names_of in *. cbn [flat_map] in Ho. rewrite E in Ho. cbn [app] in Ho.
  change (firstn 1023 (bs "/dev/input/event" ++ q)) with (node_path (bs "event" ++ q)) in Ho.
  inversion Ho as [|? ? ? ? ? Hn|? r0 ? d ? ? Hi Hr Er|? r0 ? ? ? Hi Hr Er]; subst.
  - exfalso; eapply Hn; reflexivity.
  - left. eexists _, _; eauto.
  - right. eauto.
Qed.

Lemma noticed : forall rss bs_ tail, Forall2 chunk rss bs_ -> tail = [] \/ (exists t, tail = None :: t) ->
  forall rs m ds n', pending m rs -> mn_reads m = map Some bs_ ++ tail ->
  opened init (mn_tries m) (names_of (rs ++ concat rss)) ds n' ->
  exists m', ticks (S (length (rs ++ concat rss))) m ds m' /\
    mn_sz m' = 0%nat /\ mn_ptr m' = 0%nat /\ mn_tries m' = n' /\ mn_reads m' = tl tail.
Proof.
  intros rss bs_ tail HF Ht. induction HF as [|rs0 b rss bs_ Hc HF IHF].
  - intros rs; induction rs as [|r rs IH]; intros m ds n' Hp Hm Ho.
    + destruct Hp as (pre & rest & Eb & Ep & Es & _). cbn [map concat length] in Es.
      cbn in Ho. inversion Ho; subst. cbn [map app] in Hm.
      exists (mkMon (mn_buf m) 0 0 (mn_tries m) (tl (mn_reads m))).
      cbn [mn_sz mn_ptr mn_tries mn_reads]. rewrite Hm. repeat split; auto.
      apply ticks_stop. unfold tick.
      replace (Nat.leb (mn_sz m) (mn_ptr m)) with true by (symmetry; apply Nat.leb_le; lia).
      rewrite Hm. destruct Ht as [->|[t ->]]; reflexivity.
    + assert (T : tick init m = parse_tick init m).
      { unfold tick. destruct Hp as (pre & rest & Eb & Ep & Es & _).
        cbn [map concat] in Es. rewrite app_length, bytes_len in Es.
        replace (Nat.leb (mn_sz m) (mn_ptr m)) with false by (symmetry; apply Nat.leb_gt; lia).
        reflexivity. }
      destruct (parse_one m r rs Hp) as (m1 & Hp1 & Hm1 & [(Hq & Et & E)|(q & pad & En & Et & E)]).
      * cbn [app] in Ho. apply opened_cons_other in Ho; [|exact Hq]. rewrite <- Et in Ho.
        destruct (IH m1 ds n' Hp1 ltac:(congruence) Ho) as (m' & Hk & Hrest).
        exists m'; split; auto. cbn [app length]. eapply ticks_again; [rewrite T; exact E|exact Hk].
      * cbn [app] in Ho. destruct (opened_cons_event _ _ _ _ _ _ _ En Ho) as [(d & ds' & -> & Ed & Ho')|(Ed & Ho')];
          rewrite Ed in E; rewrite <- Et in Ho';
          destruct (IH m1 _ n' Hp1 ltac:(congruence) Ho') as (m' & Hk & Hrest);
          exists m'; split; auto; cbn [app length];
          [eapply ticks_got|eapply ticks_again]; try (rewrite T; exact E); exact Hk.
  - intros rs; induction rs as [|r rs IH]; intros m ds n' Hp Hm Ho.
    + destruct Hp as (pre & rest & Eb & Ep & Es & _). cbn [map concat length] in Es.
      destruct Hc as (Hne & Hreg & -> & Hlen). destruct rs0 as [|r rs]; [congruence|].
      set (b := concat (map bytes_of (r :: rs))) in *.
      set (m0 := mkMon (b ++ skipn (length b) (mn_buf m)) (length b) 0 (mn_tries m) (map Some bs_ ++ tail)).
      assert (T : tick init m = parse_tick init m0).
      { unfold tick. replace (Nat.leb (mn_sz m) (mn_ptr m)) with true by (symmetry; apply Nat.leb_le; lia).
        rewrite Hm. reflexivity. }
      assert (Hp0 : pending m0 (r :: rs)).
      { exists [], (skipn (length b) (mn_buf m)). unfold m0; cbn [mn_buf mn_sz mn_ptr app length].
        repeat split; auto; apply Hreg. }
      cbn [concat app] in Ho.
      change (mn_tries m) with (mn_tries m0) in Ho.
      destruct (parse_one m0 r rs Hp0) as (m1 & Hp1 & Hm1 & [(Hq & Et & E)|(q & pad & En & Et & E)]).
      * cbn [app] in Ho. apply opened_cons_other in Ho; [|exact Hq]. rewrite <- Et in Ho.
        destruct (IHF rs m1 ds n' Hp1 Hm1 Ho) as (m' & Hk & Hrest).
        exists m'; split; auto. cbn [concat app length]. eapply ticks_again; [rewrite T; exact E|exact Hk].
      * cbn [app] in Ho. destruct (opened_cons_event _ _ _ _ _ _ _ En Ho) as [(d & ds' & -> & Ed & Ho')|(Ed & Ho')];
          rewrite Ed in E; rewrite <- Et in Ho';
          destruct (IHF rs m1 _ n' Hp1 Hm1 Ho') as (m' & Hk & Hrest);
          exists m'; split; auto; cbn [concat app length];
          [eapply ticks_got|eapply ticks_again]; try (rewrite T; exact E); exact Hk.
    + assert (T : tick init m = parse_tick init m).
      { unfold tick. destruct Hp as (pre & rest & Eb & Ep & Es & _).
        cbn [map concat] in Es. rewrite app_length, bytes_len in Es.
        replace (Nat.leb (mn_sz m) (mn_ptr m)) with false by (symmetry; apply Nat.leb_gt; lia).
        reflexivity. }
      destruct (parse_one m r rs Hp) as (m1 & Hp1 & Hm1 & [(Hq & Et & E)|(q & pad & En & Et & E)]).
      * cbn [app] in Ho. apply opened_cons_other in Ho; [|exact Hq]. rewrite <- Et in Ho.
        destruct (IH m1 ds n' Hp1 ltac:(congruence) Ho) as (m' & Hk & Hrest).
        exists m'; split; auto. cbn [app length]. eapply ticks_again; [rewrite T; exact E|exact Hk].
      * cbn [app] in Ho. destruct (opened_cons_event _ _ _ _ _ _ _ En Ho) as [(d & ds' & -> & Ed & Ho')|(Ed & Ho')];
          rewrite Ed in E; rewrite <- Et in Ho';
          destruct (IH m1 _ n' Hp1 ltac:(congruence) Ho') as (m' & Hk & Hrest);
          exists m'; split; auto; cbn [app length];
          [eapply ticks_got|eapply ticks_again]; try (rewrite T; exact E); exact Hk.
Qed.
End Nodes.

Lemma event_or_not (s : str) : (exists r, s = bs "event" ++ r) \/ (forall r, s <> bs "event" ++ r).
Proof.
  destruct (starts_at_name (bs "event") ltac:(vm_compute; intuition discriminate) s [])
    as [(q & E & _)|(Hq & _)]; eauto.
Qed.
Lemma opened_total {D} (init : nat -> str -> option D) l : forall n, exists ds n', opened init n l ds n'.
Proof.
  induction l as [|s l IH]; intro n; [exists [], n; constructor|].
  destruct (event_or_not s) as [[r ->]|Hn].
  - destruct (IH (S n)) as (ds & n' & H).
    destruct (init n (firstn 1023 (bs "/dev/input/event" ++ r))) as [d|] eqn:E.
    + exists (d :: ds), n'. now apply opened_device.
    + exists ds, n'. now apply opened_useless.
  - destruct (IH n) as (ds & n' & H). exists ds, n'. now apply opened_other.
Qed.

Lemma ticks_same {D} (init : nat -> str -> option D) k m1 ds m' : ticks init k m1 ds m' ->
  forall m, tick init m = tick init m1 -> ticks init k m ds m'.
Proof.
  intros H m E; destruct H; [eapply ticks_stop|eapply ticks_again|eapply ticks_got]; eauto; congruence.
Qed.

(* All devices that appeared since the last time, whatever the division into reads.  The
   descriptor is drained before and after. *)
Theorem C71_noticed : forall (D : Type) (init : nat -> str -> option D) m rss bufs tail fuel,
  Nat.le (mn_sz m) (mn_ptr m) -> mn_reads m = map Some bufs ++ tail ->
  tail = [] \/ (exists t, tail = None :: t) ->
  Forall2 chunk rss bufs -> Nat.lt (length (concat rss)) fuel ->
  exists ds n' m',
    new_devices init fuel m = Ok (ds, m') /\
    opened init (mn_tries m) (names_of (concat rss)) ds n' /\
    Nat.le (mn_sz m') (mn_ptr m') /\ mn_tries m' = n' /\ mn_reads m' = tl tail.
Proof.
  intros D init m rss bufs tail fuel Hr Hm Ht HF Hf.
  destruct (opened_total init (names_of (concat rss)) (mn_tries m)) as (ds & n' & Ho).
  destruct HF as [|rs0 b rss bufs Hc HF].
  - cbn in Ho. inversion Ho; subst. exists [], (mn_tries m), (mkMon (mn_buf m) 0 0 (mn_tries m) (tl (mn_reads m))).
    destruct fuel as [|f]; [cbn in Hf; lia|]. cbn [map app] in Hm.
    assert (T : tick init m = Stop (mkMon (mn_buf m) 0 0 (mn_tries m) (tl (mn_reads m)))).
    { unfold tick. replace (Nat.leb (mn_sz m) (mn_ptr m)) with true by (symmetry; apply Nat.leb_le; lia).
      rewrite Hm. destruct Ht as [->|[t ->]]; reflexivity. }
    cbn [new_devices devmon_read_device]. rewrite T. cbn [bind mn_sz mn_ptr mn_tries mn_reads].
    rewrite Hm. repeat split; auto.
  - destruct Hc as (Hne & Hreg & Eb & Hlen). destruct rs0 as [|r rs]; [congruence|].
    set (m1 := mkMon (b ++ skipn (length b) (mn_buf m)) (length b) 0 (mn_tries m) (map Some bufs ++ tail)).
    assert (T : tick init m = tick init m1).
    { unfold tick. replace (Nat.leb (mn_sz m) (mn_ptr m)) with true by (symmetry; apply Nat.leb_le; lia).
      rewrite Hm. cbn [map app]. fold m1.
      replace (Nat.leb (mn_sz m1) (mn_ptr m1)) with false; [reflexivity|].
      symmetry; apply Nat.leb_gt. unfold m1; cbn [mn_sz mn_ptr]. rewrite Eb.
      cbn [map concat]. rewrite app_length, bytes_len. lia. }
    assert (Hp : pending m1 (r :: rs)).
    { exists [], (skipn (length b) (mn_buf m)). unfold m1; cbn [mn_buf mn_sz mn_ptr app length].
      rewrite <- Eb. repeat split; auto; apply Hreg. }
    destruct (noticed init rss bufs tail HF Ht (r :: rs) m1 ds n' Hp eq_refl Ho) as (m' & Hk & Hs & Hpt & Hn & Hre).
    exists ds, n', m'. split; [|repeat split; auto; lia].
    apply (ticks_all init fuel (S (length ((r :: rs) ++ concat rss)))).
    + exact (ticks_same init _ m1 _ _ Hk m T).
    + cbn [concat] in Hf. lia.
Qed.

(* The scan at the start: the entries of the directory that are not directories and whose
   names begin with "event"; it aborts when there are more than 64 of them, however few of
   them are devices of interest *)
Definition event_nodes (ents : list (str * bool)) : list str :=
  map fst (filter (fun e => negb (snd e) && is_event (fst e)) ents).
Lemma is_event_ok s : is_event s = true <-> exists r, s = bs "event" ++ r.
Proof.
  unfold is_event. split.
  - intro H. exists (skipn 5 s). rewrite <- (firstn_skipn 5 s) at 1. f_equal.
    revert H. generalize (firstn 5 s) (bs "event").
    induction l as [|x l IH]; intros [|y w]; cbn [str_eqb]; intro H; try discriminate; auto.
    apply andb_true_iff in H as [H1 H2]. apply N.eqb_eq in H1. f_equal; auto.
  - intros [r ->]. reflexivity.
Qed.
Lemma workers_spec ents : forall n ws,
  scan_workers ents n ws =
  if Nat.leb (n + length (event_nodes ents)) MAX_NODES || Nat.eqb (length (event_nodes ents)) 0
  then Some (ws ++ map node_path (event_nodes ents)) else None.
Proof.
  unfold event_nodes. induction ents as [|[s dir] ents IH]; intros n ws.
  - cbn. rewrite orb_true_r, app_nil_r. reflexivity.
  - cbn [scan_workers filter fst snd]. destruct (negb dir && is_event s); cbn [map length]; [|apply IH].
    destruct (Nat.ltb_spec n MAX_NODES) as [H|H].
    + rewrite IH. cbn [map fst]. rewrite <- app_assoc. cbn [app].
      replace (n + S _)%nat with (S n + length (map fst (filter (fun e => negb (snd e) && is_event (fst e)) ents)))%nat by lia.
      destruct (Nat.leb_spec (S n + length (map fst (filter (fun e => negb (snd e) && is_event (fst e)) ents))) MAX_NODES) as [H1|H1]; cbn [orb]; [reflexivity|].
      destruct (Nat.eqb_spec (length (map fst (filter (fun e => negb (snd e) && is_event (fst e)) ents))) 0); [lia|].
      reflexivity.
    + match goal with |- context [Nat.leb ?a ?b] => destruct (Nat.leb_spec a b); [lia|] end. reflexivity.
Qed.
Lemma join_opened {D} (init : nat -> str -> option D) l : Forall (fun s => is_event s = true) l ->
  forall n, exists n', opened init n l (scan_join init (map node_path l) n) n'.
Proof.
  intro H; induction H as [|s l Hs _ IH]; intro n; [exists n; constructor|].
  apply is_event_ok in Hs as [r ->]. destruct (IH (S n)) as [n' Ho]. exists n'.
  cbn [map scan_join].
  change (node_path (bs "event" ++ r)) with (firstn 1023 (bs "/dev/input/event" ++ r)).
  destruct (init n (firstn 1023 (bs "/dev/input/event" ++ r))) as [d|] eqn:E.
  - apply opened_device; auto.
  - apply opened_useless; auto.
Qed.
Theorem C71_scan : forall (D : Type) (init : nat -> str -> option D) ents,
  let nodes := event_nodes ents in
  (device_scan init ents = None <-> Nat.lt 64 (length nodes)) /\
  (Nat.le (length nodes) 64 ->
   exists ds n', device_scan init ents = Some ds /\ opened init 0 nodes ds n').
Proof.
  intros D init ents nodes. unfold device_scan. rewrite workers_spec. fold nodes. cbn [Nat.add app].
  assert (F : Forall (fun s => is_event s = true) nodes).
  { apply Forall_forall. intros s Hs. unfold nodes, event_nodes in Hs.
    apply in_map_iff in Hs as ([s' dir] & <- & He). apply filter_In in He as [_ He].
    cbn [fst snd] in *. now apply andb_true_iff in He. }
  unfold MAX_NODES. destruct (Nat.leb_spec (length nodes) 64) as [H|H]; cbn [orb].
  - split; [split; [discriminate|lia]|]. intros _.
    destruct (join_opened init nodes F 0) as [n' Ho]. eauto.
  - destruct (Nat.eqb_spec (length nodes) 0); [lia|]. split; [split; auto|lia].
Qed.

(* A record without a name at the end of a read: the bytes behind it are those of an earlier
   read, so that a device can be announced again *)
Definition overflowed : list (option (list N)) :=
  let r1 := mkRec 1 256 0 (Some (bs "event5", 9%nat)) in
  let r2 := mkRec 4294967295 16384 0 None in
  [Some (bytes_of r1); None; Some (bytes_of r2)].
Theorem C71_overflow_refuted : exists reads m,
  new_devices (fun _ p => Some p) 5 (mon_start reads) = Ok ([bs "/dev/input/event5"], m) /\
  exists m', new_devices (fun _ p => Some p) 5 m = Ok ([bs "/dev/input/event5"], m').
Proof.
  exists overflowed.
  destruct (new_devices (fun _ p => Some p) 5 (mon_start overflowed)) as [[ds m]| | |] eqn:E;
    [|exfalso; vm_compute in E; discriminate..].
  exists m. assert (ds = [bs "/dev/input/event5"]) as -> by (vm_compute in E; injection E as <- _; reflexivity).
  split; [reflexivity|].
  vm_compute in E. injection E as <-. eexists. vm_compute. reflexivity.
Qed.
(* and a node made after the descriptor and before the scan is found by both *)
Theorem C71_twice_refuted : exists ents reads m,
  device_scan (fun _ p => Some p) ents = Some [bs "/dev/input/event5"] /\
  new_devices (fun _ p => Some p) 5 (mon_start reads) = Ok ([bs "/dev/input/event5"], m).
Proof.
  exists [(bs "by-id", true); (bs "event5", false)], overflowed.
  eexists. split; vm_compute; reflexivity.
Qed.

(* Two reads, three names, one of them not a device of interest *)
Definition some_chunks : list (list record) :=
  [[mkRec 1 256 0 (Some (bs "event5", 9%nat)); mkRec 1 256 0 (Some (bs "js0", 12%nat))];
   [mkRec 1 256 0 (Some (bs "event6", 9%nat))]].
Example C71_example :
  let bufs := map (fun rs => concat (map bytes_of rs)) some_chunks in
  Forall2 chunk some_chunks bufs /\
  exists m', new_devices (fun n p => if Nat.eqb n 0 then None else Some p) 9 (mon_start (map Some bufs)) =
             Ok ([bs "/dev/input/event6"], m').
Proof.
  assert (NM : forall s, ~ In 0 (bs s) -> forall p w, named (mkRec w 256 0 (Some (bs s, p)))).
  { intros s H p w. exists (bs s), p. auto. }
  split.
  - assert (LE : forall l : list N, Nat.leb (length l) 4096 = true -> Nat.le (length l) 4096)
      by (intro; apply Nat.leb_le).
    apply Forall2_cons; [|apply Forall2_cons; [|apply Forall2_nil]];
      (split; [discriminate|split; [|split; [reflexivity|apply LE; vm_compute; reflexivity]]]);
      cbn [regular]; repeat split; left; apply NM; vm_compute; intuition discriminate.
  - eexists. vm_compute. reflexivity.
Qed.

Definition C71_all := (C71_noticed, C71_scan, C71_overflow_refuted, C71_twice_refuted).
Print Assumptions C71_all.
