(* The invariant behind C73. *)
From Coq Require Import PeanoNat Lia.
From Verif Require Import Base Ipc SpecIpc.

Lemma find_in ps i p : find_proc ps i = Some p -> In (i, p) ps.
Proof.
  induction ps as [|[j q] ps IH]; cbn [find_proc]; [discriminate|].
  destruct (Nat.eqb_spec j i) as [E|E]; [intros [= ->]; left; now rewrite E|right; auto].
Qed.
Lemma in_find ps i p : NoDup (map fst ps) -> In (i, p) ps -> find_proc ps i = Some p.
Proof.
  induction ps as [|[j q] ps IH]; cbn [find_proc map fst]; intros N H; [destruct H|]. inversion N; subst.
  destruct H as [H|H].
  - injection H as -> ->. now rewrite Nat.eqb_refl.
  - destruct (Nat.eqb_spec j i) as [E|E]; [|auto]. subst. exfalso.
    match goal with X : ~ In _ _ |- _ => apply X end. apply in_map_iff. now exists (i, p).
Qed.
Lemma in_set ps i c j p : In (j, p) (set_pc ps i c) <->
  (j <> i /\ In (j, p) ps) \/ (j = i /\ exists q, In (i, q) ps /\ p = mkProc c (p_own q)).
Proof.
  induction ps as [|[k q] ps IH]; cbn [set_pc In].
  - split; [tauto|]. intros [[_ H]|(_ & x & H & _)]; exact H.
  - rewrite IH. destruct (Nat.eqb_spec k i) as [E|E].
    + subst k. split.
      * intros [H|[H|(-> & x & H1 & H2)]].
        -- injection H as <- <-. right. split; [reflexivity|]. exists q. auto.
        -- left. tauto.
        -- right. split; [reflexivity|]. exists x. auto.
      * intros [[H [H1|H1]]|(-> & x & [H1|H1] & H2)].
        -- injection H1 as -> ->. congruence.
        -- right. left. auto.
        -- injection H1 as <-. left. now rewrite H2.
        -- right. right. split; [reflexivity|]. exists x. auto.
    + split.
      * intros [H|[H|(-> & x & H1 & H2)]].
        -- injection H as -> ->. left. split; [auto|now left].
        -- left. tauto.
        -- right. split; [reflexivity|]. exists x. auto.
      * intros [[H [H1|H1]]|(-> & x & [H1|H1] & H2)].
        -- injection H1 as -> ->. now left.
        -- right. left. auto.
        -- injection H1 as -> ->. congruence.
        -- right. right. split; [reflexivity|]. exists x. auto.
Qed.
Lemma set_fst ps i c : map fst (set_pc ps i c) = map fst ps.
Proof. induction ps as [|[k q] ps IH]; cbn [set_pc map fst]; [reflexivity|]. now rewrite IH. Qed.
Lemma in_drop ps i j p : In (j, p) (drop ps i) <-> j <> i /\ In (j, p) ps.
Proof. unfold drop. rewrite filter_In. cbn [fst]. rewrite Bool.negb_true_iff, Nat.eqb_neq. tauto. Qed.
Lemma drop_nodup ps i : NoDup (map fst ps) -> NoDup (map fst (drop ps i)).
Proof.
  induction ps as [|[k q] ps IH]; cbn [drop filter map fst]; intros H; [exact H|]. inversion H; subst.
  fold (drop ps i). destruct (Nat.eqb k i); cbn [negb]; [auto|]. cbn [map fst]. constructor; auto.
  intros X. apply in_map_iff in X as ([k' q'] & E & X). cbn [fst] in E. subst. apply in_drop in X as [_ X].
  match goal with Y : ~ In _ _ |- _ => apply Y end. apply in_map_iff. now exists (k, q').
Qed.

Definition holder (c : pc) : bool := match c with PNew | PSocket | POpened => false | _ => true end.
Definition has_path (c : pc) : bool := match c with PBound | PListening | PServing | PCommand => true | _ => false end.
Definition hears (c : pc) : bool := match c with PListening | PServing | PCommand => true | _ => false end.
Definition done (c : pc) : bool := match c with PServing | PCommand => true | _ => false end.
Record inv (ok : bool) (w : world) : Prop := {
  i_nodup : NoDup (map fst (w_procs w));
  i_fresh : forall i p, In (i, p) (w_procs w) -> (i < w_next w /\ p_own p < w_next w)%nat;
  i_own : forall i p, In (i, p) (w_procs w) -> p_pc p <> PCommand -> p_own p = i;
  i_creator : forall i p q, In (i, p) (w_procs w) -> p_pc p = PCommand -> In (p_own p, q) (w_procs w) -> p_pc q = PServing;
  i_lock : forall i p, In (i, p) (w_procs w) -> holder (p_pc p) = true -> w_lock w = Some (p_own p);
  i_locked : forall o, w_lock w = Some o -> (o < w_next w)%nat /\ forall p, In (o, p) (w_procs w) -> holder (p_pc p) = true;
  i_path : forall i p, In (i, p) (w_procs w) -> has_path (p_pc p) = true ->
    exists m, w_path w = Some (p_own p, m) /\ (ok = true -> done (p_pc p) = true -> m = 432%N);
  i_hears : forall i p, In (i, p) (w_procs w) -> hears (p_pc p) = true -> In (p_own p) (w_listen w)
}.

Lemma unique_in (w : world) ok i p q : inv ok w -> In (i, p) (w_procs w) -> In (i, q) (w_procs w) -> p = q.
Proof.
  intros I Hp Hq. apply in_find in Hp; [|apply I]. apply in_find in Hq; [|apply I]. congruence.
Qed.
(* a process that has or inherited the lock, beside a keyd that has it and is not serving yet *)
Lemma alone ok w i p j q : inv ok w -> In (i, p) (w_procs w) -> holder (p_pc p) = true -> done (p_pc p) = false ->
  In (j, q) (w_procs w) -> holder (p_pc q) = true -> j = i /\ q = p.
Proof.
  intros I Hp Hh Hd Hq Hh'. pose proof (i_lock _ _ I _ _ Hp Hh) as L1. pose proof (i_lock _ _ I _ _ Hq Hh') as L2.
  assert (E : p_own q = p_own p) by congruence.
  assert (Ep : p_own p = i) by (apply (i_own _ _ I _ _ Hp); intros X; rewrite X in Hd; discriminate).
  assert (D : {p_pc q = PCommand} + {p_pc q <> PCommand}) by (destruct (p_pc q); (left; reflexivity) || (right; discriminate)).
  destruct D as [D|D].
  - exfalso. assert (X : p_pc p = PServing). { eapply (i_creator _ _ I j q p Hq D). now rewrite E, Ep. }
    rewrite X in Hd. discriminate.
  - pose proof (i_own _ _ I _ _ Hq D) as Eq. assert (Ej : j = i) by congruence. rewrite Ej in Hq. split; [exact Ej|]. eapply unique_in; eauto.
Qed.
Lemma free_lock ok w : inv ok w -> lock_taken w = false -> forall i p, In (i, p) (w_procs w) -> holder (p_pc p) = false.
Proof.
  intros I F i p H. destruct (holder (p_pc p)) eqn:E; [|reflexivity]. exfalso.
  pose proof (i_lock _ _ I _ _ H E) as L. unfold lock_taken in F. rewrite L in F.
  assert (X : existsb (fun x => has_lock (snd x) && Nat.eqb (p_own (snd x)) (p_own p)) (w_procs w) = true).
  { apply existsb_exists. exists (i, p). split; [exact H|]. cbn [snd]. rewrite Nat.eqb_refl. unfold has_lock.
    destruct (p_pc p); try discriminate E; reflexivity. }
  congruence.
Qed.

Lemma inv0 ok : inv ok world0.
Proof. constructor; cbn [world0 w_procs w_lock map]; try (intros; contradiction); try discriminate; constructor. Qed.

(* fewer processes *)
Lemma inv_drop ok w i : inv ok w -> inv ok (mkW (drop (w_procs w) i) (w_next w) (w_lock w) (w_path w) (w_listen w)).
Proof.
  intros I. constructor; cbn [w_procs w_next w_lock w_path w_listen].
  - apply drop_nodup, I.
  - intros j p H. apply in_drop in H as [_ H]. now apply (i_fresh _ _ I).
  - intros j p H. apply in_drop in H as [_ H]. now apply (i_own _ _ I).
  - intros j p q H Hc Hq. apply in_drop in H as [_ H]. apply in_drop in Hq as [_ Hq]. now apply (i_creator _ _ I j p q).
  - intros j p H. apply in_drop in H as [_ H]. now apply (i_lock _ _ I j).
  - intros o H. destruct (i_locked _ _ I o H) as [A B]. split; [exact A|]. intros p X. apply in_drop in X as [_ X]. auto.
  - intros j p H. apply in_drop in H as [_ H]. now apply (i_path _ _ I j).
  - intros j p H. apply in_drop in H as [_ H]. now apply (i_hears _ _ I j).
Qed.

(* process i goes on *)
Lemma inv_to ok w i p c lock path listen :
  inv ok w -> In (i, p) (w_procs w) -> p_pc p <> PCommand -> c <> PCommand -> p_pc p <> PServing ->
  (forall j q, In (j, q) (w_procs w) -> j <> i -> holder (p_pc q) = true -> lock = Some (p_own q)) ->
  (holder c = true -> lock = Some (p_own p)) ->
  (lock = Some (p_own p) /\ holder c = true \/ lock = w_lock w /\ holder (p_pc p) = holder c) ->
  (forall j q, In (j, q) (w_procs w) -> j <> i -> has_path (p_pc q) = true ->
    exists m, path = Some (p_own q, m) /\ (ok = true -> done (p_pc q) = true -> m = 432%N)) ->
  (has_path c = true -> exists m, path = Some (p_own p, m) /\ (ok = true -> done c = true -> m = 432%N)) ->
  (forall x, In x (w_listen w) -> In x listen) -> (hears c = true -> In (p_own p) listen) ->
  inv ok (mkW (set_pc (w_procs w) i c) (w_next w) lock path listen).
Proof.
  intros I Hi Hp Hc Hs L1 L2 L3 P1 P2 H1 H2.
  assert (Hq : forall q, In (i, q) (w_procs w) -> q = p) by (intros; eapply unique_in; eauto).
  constructor; cbn [w_procs w_next w_lock w_path w_listen].
  - rewrite set_fst. apply I.
  - intros j q H. apply in_set in H as [[_ H]|(-> & q' & H & ->)]; [now apply (i_fresh _ _ I)|].
    cbn [p_own]. now apply (i_fresh _ _ I) in H.
  - intros j q H. apply in_set in H as [[_ H]|(-> & q' & H & ->)]; [now apply (i_own _ _ I)|].
    cbn [p_own p_pc]. intros _. apply Hq in H. subst. now apply (i_own _ _ I).
  - intros j q r H Hcm Hr. apply in_set in H as [[_ H]|(-> & q' & H & ->)]; [|now cbn [p_pc] in Hcm].
    apply in_set in Hr as [[_ Hr]|(E & r' & Hr & ->)]; [now apply (i_creator _ _ I j q r)|].
    exfalso. apply Hq in Hr. subst r'. apply Hs. apply (i_creator _ _ I j q p H Hcm). now rewrite E.
  - intros j q H. apply in_set in H as [[Hn H]|(-> & q' & H & ->)]; [eauto|].
    cbn [p_own p_pc]. apply Hq in H. subst. exact L2.
  - intros o H. destruct L3 as [[-> X]|[-> X]].
    + injection H as <-. assert (E : p_own p = i) by (apply (i_own _ _ I); auto). rewrite E. split; [apply (i_fresh _ _ I _ _ Hi)|].
      intros q Y. apply in_set in Y as [[Hn _]|(_ & q' & _ & ->)]; [congruence|exact X].
    + destruct (i_locked _ _ I o H) as [A B]. split; [exact A|]. intros q Y.
      apply in_set in Y as [[Hn Y]|(-> & q' & Y & ->)]; [auto|]. cbn [p_pc]. rewrite <- X. apply B. exact Hi.
  - intros j q H. apply in_set in H as [[Hn H]|(-> & q' & H & ->)]; [eauto|].
    cbn [p_own p_pc]. apply Hq in H. subst. exact P2.
  - intros j q H. apply in_set in H as [[Hn H]|(-> & q' & H & ->)]; [intros X; apply H1; now apply (i_hears _ _ I j)|].
    cbn [p_own p_pc]. apply Hq in H. subst. exact H2.
Qed.

Lemma inv_next ok w i p u b : inv ok w -> In (i, p) (w_procs w) -> (ok = true -> b = true) -> inv ok (next w i p u b).
Proof.
  intros I Hi Hb. unfold next, to. destruct (p_pc p) eqn:Ec; try exact I.
  1-2: apply (inv_to ok w i p); try rewrite Ec; auto; try discriminate;
    [intros j q H _; now apply (i_lock _ _ I j)|intros j q H _; now apply (i_path _ _ I j)].
  - destruct (lock_taken w) eqn:El; [now apply inv_drop|].
    pose proof (free_lock _ _ I El) as F.
    apply (inv_to ok w i p); try rewrite Ec; auto; try discriminate.
    + intros j q H _ Hh. rewrite (F _ _ H) in Hh. discriminate.
    + intros j q H _ Hh. apply F in H. destruct (p_pc q); discriminate.
  - assert (A : forall j q, In (j, q) (w_procs w) -> j <> i -> holder (p_pc q) = false).
    { intros j q H Hn. destruct (holder (p_pc q)) eqn:E; [|reflexivity].
      destruct (alone ok w i p j q I Hi) as [X _]; auto; try (rewrite Ec; reflexivity). congruence. }
    apply (inv_to ok w i p); try rewrite Ec; auto; try discriminate.
    + intros j q H Hn Hh. rewrite (A _ _ H Hn) in Hh. discriminate.
    + intros _. apply (i_lock _ _ I i p Hi). now rewrite Ec.
    + intros j q H Hn Hh. specialize (A _ _ H Hn). destruct (p_pc q); discriminate.
  - destruct (w_path w) eqn:Ep; [pose proof (inv_drop _ _ i I) as I2; rewrite Ep in I2; exact I2|].
    assert (A : forall j q, In (j, q) (w_procs w) -> j <> i -> holder (p_pc q) = false).
    { intros j q H Hn. destruct (holder (p_pc q)) eqn:E; [|reflexivity].
      destruct (alone ok w i p j q I Hi) as [X _]; auto; try (rewrite Ec; reflexivity). congruence. }
    apply (inv_to ok w i p); try rewrite Ec; auto; try discriminate.
    + intros j q H Hn Hh. rewrite (A _ _ H Hn) in Hh. discriminate.
    + intros _. apply (i_lock _ _ I i p Hi). now rewrite Ec.
    + intros j q H Hn Hh. specialize (A _ _ H Hn). destruct (p_pc q); discriminate.
    + intros _. eexists. split; [reflexivity|]. discriminate.
  - assert (A : forall j q, In (j, q) (w_procs w) -> j <> i -> holder (p_pc q) = false).
    { intros j q H Hn. destruct (holder (p_pc q)) eqn:E; [|reflexivity].
      destruct (alone ok w i p j q I Hi) as [X _]; auto; try (rewrite Ec; reflexivity). congruence. }
    apply (inv_to ok w i p); try rewrite Ec; auto; try discriminate.
    + intros j q H Hn Hh. rewrite (A _ _ H Hn) in Hh. discriminate.
    + intros _. apply (i_lock _ _ I i p Hi). now rewrite Ec.
    + intros j q H Hn Hh. specialize (A _ _ H Hn). destruct (p_pc q); discriminate.
    + intros _. destruct (i_path _ _ I i p Hi) as (m & -> & _); [now rewrite Ec|]. exists m. split; [reflexivity|discriminate].
    + intros x Hx. now right.
    + intros _. now left.
  - assert (A : forall j q, In (j, q) (w_procs w) -> j <> i -> holder (p_pc q) = false).
    { intros j q H Hn. destruct (holder (p_pc q)) eqn:E; [|reflexivity].
      destruct (alone ok w i p j q I Hi) as [X _]; auto; try (rewrite Ec; reflexivity). congruence. }
    apply (inv_to ok w i p); try rewrite Ec; auto; try discriminate.
    + intros j q H Hn Hh. rewrite (A _ _ H Hn) in Hh. discriminate.
    + intros _. apply (i_lock _ _ I i p Hi). now rewrite Ec.
    + intros j q H Hn Hh. specialize (A _ _ H Hn). destruct (p_pc q); discriminate.
    + intros _. destruct (i_path _ _ I i p Hi) as (m & -> & _); [now rewrite Ec|].
      eexists. split; [reflexivity|]. intros Hok _. now rewrite Hb.
    + intros _. apply (i_hears _ _ I i p Hi). now rewrite Ec.
Qed.

(* a new process *)
Lemma inv_new ok w c o : inv ok w ->
  (c = PNew /\ o = w_next w \/ c = PCommand /\ exists i p, In (i, p) (w_procs w) /\ p_pc p = PServing /\ o = p_own p) ->
  inv ok (mkW ((w_next w, mkProc c o) :: w_procs w) (S (w_next w)) (w_lock w) (w_path w) (w_listen w)).
Proof.
  intros I Hc.
  assert (No : forall q, ~ In (w_next w, q) (w_procs w)) by (intros q H; apply (i_fresh _ _ I) in H; lia).
  assert (Own : forall j q, In (j, q) (w_procs w) -> p_own q <> w_next w).
  { intros j q H E. apply (i_fresh _ _ I) in H. lia. }
  constructor; cbn [w_procs w_next w_lock w_path w_listen map fst].
  - constructor; [|apply I]. intros X. apply in_map_iff in X as ([k q] & E & X). cbn [fst] in E. subst. now apply No in X.
  - intros j q [H|H].
    + injection H as <- <-. cbn [p_own]. destruct Hc as [[_ ->]|(_ & i & p & H & _ & ->)]; [lia|].
      apply (i_fresh _ _ I) in H. lia.
    + apply (i_fresh _ _ I) in H. lia.
  - intros j q [H|H] Hn; [|now apply (i_own _ _ I)]. injection H as <- <-. cbn [p_own p_pc] in *.
    destruct Hc as [[_ ->]|(E & _)]; [reflexivity|congruence].
  - intros j q r [H|H] Hcm Hr.
    + injection H as <- <-. cbn [p_pc p_own] in *. destruct Hc as [[E _]|(_ & i & p & H & Hs & ->)]; [congruence|].
      destruct Hr as [Hr|Hr].
      * exfalso. injection Hr as E _. symmetry in E. eapply Own; [|exact E]; eassumption.
      * assert (E : p_own p = i) by (apply (i_own _ _ I); [exact H|congruence]). rewrite E in Hr.
        replace r with p; [exact Hs|]. eapply unique_in; eauto.
    + destruct Hr as [Hr|Hr]; [|now apply (i_creator _ _ I j q r)].
      exfalso. injection Hr as E _. symmetry in E. eapply Own; [|exact E]; eassumption.
  - intros j q [H|H]; [|now apply (i_lock _ _ I j)]. injection H as <- <-. cbn [p_pc p_own].
    destruct Hc as [[-> _]|(-> & i & p & H & Hs & ->)]; [discriminate|]. intros _.
    apply (i_lock _ _ I i p H). now rewrite Hs.
  - intros o' H. destruct (i_locked _ _ I o' H) as [A B]. split; [lia|]. intros q [X|X]; [|auto].
    injection X as X _. lia.
  - intros j q [H|H]; [|now apply (i_path _ _ I j)]. injection H as <- <-. cbn [p_pc p_own].
    destruct Hc as [[-> _]|(-> & i & p & H & Hs & ->)]; [discriminate|]. intros _.
    destruct (i_path _ _ I i p H) as (m & Hm & Ho); [now rewrite Hs|]. exists m. split; [exact Hm|].
    intros X _. apply Ho; [exact X|now rewrite Hs].
  - intros j q [H|H]; [|now apply (i_hears _ _ I j)]. injection H as <- <-. cbn [p_pc p_own].
    destruct Hc as [[-> _]|(-> & i & p & H & Hs & ->)]; [discriminate|]. intros _.
    apply (i_hears _ _ I i p H). now rewrite Hs.
Qed.

Definition fair (ok : bool) (a : act) : Prop :=
  match a with AFork _ e => e = true | ANext _ _ b => ok = true -> b = true | _ => True end.
Lemma inv_step ok w a : inv ok w -> fair ok a -> inv ok (act_step w a).
Proof.
  intros I F. destruct a as [|i u b|i|i e]; cbn [act_step fair] in *.
  - apply inv_new; auto.
  - destruct (find_proc (w_procs w) i) as [p|] eqn:E; [|exact I]. apply find_in in E. now apply inv_next.
  - now apply inv_drop.
  - subst e. destruct (find_proc (w_procs w) i) as [p|] eqn:E; [|exact I]. apply find_in in E.
    destruct (p_pc p) eqn:Ec; try exact I. apply inv_new; [exact I|]. right. split; [reflexivity|]. exists i, p. auto.
Qed.
Lemma inv_acts ok l : forall w, inv ok w -> Forall (fair ok) l -> inv ok (acts w l).
Proof.
  induction l as [|a l IH]; intros w I F; [exact I|]. inversion F; subst. cbn [acts fold_left]. apply IH; [|assumption].
  now apply inv_step.
Qed.
