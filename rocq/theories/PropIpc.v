(* C73: one daemon at a time. *)
From Coq Require Import PeanoNat Lia.
From Verif Require Import Base Ipc SpecIpc IpcProofs.

Lemma fair_of l : execs l -> Forall (fair false) l.
Proof.
  intros H. apply Forall_forall. intros [|i u b|i|i e] X; cbn [fair]; auto; [discriminate|].
  destruct e; [reflexivity|]. now apply H in X.
Qed.
Lemma fair_ok l : execs l -> permitted l -> Forall (fair true) l.
Proof.
  intros H H'. apply Forall_forall. intros [|i u b|i|i e] X; cbn [fair]; auto.
  - intros _. destruct b; [reflexivity|]. now apply H' in X.
  - destruct e; [reflexivity|]. now apply H in X.
Qed.
Lemma inv_of l : execs l -> inv false (acts world0 l).
Proof. intros H. apply inv_acts; [apply inv0|now apply fair_of]. Qed.
Lemma inv_ok l : execs l -> permitted l -> inv true (acts world0 l).
Proof. intros H H'. apply inv_acts; [apply inv0|now apply fair_ok]. Qed.
Lemma master_in w i : master w i <-> exists p, In (i, p) (w_procs w) /\ holder (p_pc p) = true /\ p_pc p <> PCommand.
Proof.
  unfold master, is_at. split.
  - intros [H|[H|[H|[H|H]]]]; destruct H as [o H]; (eexists; split; [exact H|]; split; [reflexivity|discriminate]).
  - intros ([c o] & H & Hh & Hn). cbn [p_pc] in *. destruct c; try discriminate Hh; try congruence; intuition eauto.
Qed.

(* However many keyd are started and ended, and whatever the order of their steps: at most one
   of them has passed the lock. *)
Theorem C73_one : forall l a b, execs l -> master (acts world0 l) a -> master (acts world0 l) b -> a = b.
Proof.
  intros l a b He Ha Hb. pose proof (inv_of l He) as I.
  apply master_in in Ha as (p & Hp & H1 & N1), Hb as (q & Hq & H2 & N2).
  pose proof (i_lock _ _ I _ _ Hp H1) as L1. pose proof (i_lock _ _ I _ _ Hq H2) as L2.
  rewrite (i_own _ _ I _ _ Hp N1) in L1. rewrite (i_own _ _ I _ _ Hq N2) in L2. congruence.
Qed.
(* The address leads to the socket of the daemon that serves; those in its group can connect,
   others cannot. *)
Theorem C73_address : forall l i, execs l -> permitted l -> serves (acts world0 l) i ->
  w_path (acts world0 l) = Some (i, 432%N) /\ connects (acts world0 l) 16 = true /\ connects (acts world0 l) 2 = false.
Proof.
  intros l i He Hp [o H]. pose proof (inv_ok l He Hp) as I. set (w := acts world0 l) in *. clearbody w.
  assert (Eo : o = i) by (apply (i_own _ _ I _ _ H); discriminate). subst o.
  destruct (i_path _ _ I _ _ H eq_refl) as (m & Em & X). specialize (X eq_refl eq_refl). subst m. cbn [p_own] in Em.
  pose proof (i_hears _ _ I _ _ H eq_refl) as Hl. cbn [p_own] in Hl.
  split; [exact Em|]. unfold connects. rewrite Em.
  assert (A : existsb (Nat.eqb i) (w_listen w) = true) by (apply existsb_exists; exists i; split; [exact Hl|apply Nat.eqb_refl]).
  assert (B : existsb (fun x => has_sd (snd x) && Nat.eqb (p_own (snd x)) i) (w_procs w) = true).
  { apply existsb_exists. exists (i, mkProc PServing i). split; [exact H|]. cbn [snd p_own has_sd p_pc]. now rewrite Nat.eqb_refl. }
  rewrite A, B. split; reflexivity.
Qed.

Lemma step_serves a w i : inv false w -> serves w i -> fair false a -> a <> ADie i ->
  serves (act_step w a) i /\ w_path (act_step w a) = w_path w.
Proof.
  intros I [o H] F Hd. assert (G : forall c, p_pc c <> PServing -> forall j, In (j, c) (w_procs w) -> j <> i).
  { intros c Hc j Hj E. subst j. apply Hc. rewrite (unique_in _ _ _ _ _ I Hj H). reflexivity. }
  assert (S0 : forall j q c, In (j, q) (w_procs w) -> p_pc q <> PServing -> In (i, mkProc PServing o) (set_pc (w_procs w) j c)).
  { intros j q c Hj Hn. apply in_set. left. split; [|exact H]. intros E. symmetry in E. now apply (G q Hn) in E. }
  assert (D0 : forall j q, In (j, q) (w_procs w) -> p_pc q <> PServing -> In (i, mkProc PServing o) (drop (w_procs w) j)).
  { intros j q Hj Hn. apply in_drop. split; [|exact H]. intros E. symmetry in E. now apply (G q Hn) in E. }
  assert (M : forall j q, In (j, q) (w_procs w) -> holder (p_pc q) = true -> done (p_pc q) = false -> False).
  { intros j q Hj Hh Hn. destruct (alone _ _ _ _ _ _ I Hj Hh Hn H eq_refl) as [_ E]. rewrite <- E in Hn. discriminate. }
  destruct a as [|j u b|j|j e]; cbn [act_step].
  - split; [exists o; now right|reflexivity].
  - destruct (find_proc (w_procs w) j) as [q|] eqn:E; [|split; [now exists o|reflexivity]]. apply find_in in E.
    unfold next, to. destruct (p_pc q) eqn:Eq; try (split; [now exists o|reflexivity]);
      try (exfalso; apply (M j q E); rewrite Eq; reflexivity).
    + split; [|reflexivity]. exists o. cbn [w_procs]. eapply S0; [exact E|congruence].
    + split; [|reflexivity]. exists o. cbn [w_procs]. eapply S0; [exact E|congruence].
    + destruct (lock_taken w); (split; [|reflexivity]); exists o; cbn [w_procs].
      * eapply D0; [exact E|congruence].
      * eapply S0; [exact E|congruence].
  - split; [|reflexivity]. exists o. cbn [w_procs]. apply in_drop. split; [congruence|exact H].
  - destruct (find_proc (w_procs w) j) as [q|]; [|split; [now exists o|reflexivity]].
    destruct (p_pc q); try (split; [now exists o|reflexivity]). split; [exists o; now right|reflexivity].
Qed.
(* Whoever else starts or ends: a daemon that serves keeps serving and keeps its address until
   it ends. *)
Theorem C73_undisturbed : forall l l' i, execs (l ++ l') -> serves (acts world0 l) i -> spared i l' ->
  serves (acts world0 (l ++ l')) i /\ w_path (acts world0 (l ++ l')) = w_path (acts world0 l).
Proof.
  intros l l' i He Hs Hsp. unfold acts in *. rewrite fold_left_app. fold (acts world0 l) in *.
  assert (I : inv false (acts world0 l)) by (apply inv_of; intros j X; apply (He j), in_or_app; now left).
  assert (F : Forall (fair false) l') by (apply fair_of; intros j X; apply (He j), in_or_app; now right).
  clear He. revert I Hs. generalize (acts world0 l) as w. clear l. induction l' as [|a l' IH]; intros w I Hs; [split; auto|].
  inversion F; subst. cbn [fold_left].
  destruct (step_serves a w i I Hs) as [A B]; auto; [intros E; apply Hsp; now left|].
  destruct (IH (fun X => Hsp (or_intror X)) ltac:(assumption) (act_step w a)) as [A' B']; auto; [now apply inv_step|].
  split; [exact A'|]. congruence.
Qed.
(* The lock is taken exactly while such a keyd or a command that one has started is running *)
Theorem C73_lock : forall l, execs l -> let w := acts world0 l in
  (lock_taken w = true <-> (exists i, master w i) \/ command_runs w).
Proof.
  intros l He w. pose proof (inv_of l He) as I. fold w in I. clearbody w. split.
  - intros T. unfold lock_taken in T. destruct (w_lock w) as [o|] eqn:El; [|discriminate T].
    apply existsb_exists in T as ([i p] & Hi & T). cbn [snd] in T. apply Bool.andb_true_iff in T as [T1 T2].
    apply Nat.eqb_eq in T2. assert (D : {p_pc p = PCommand} + {p_pc p <> PCommand}) by (destruct (p_pc p); (left; reflexivity) || (right; discriminate)).
    destruct D as [D|D].
    + right. exists i, (p_own p). destruct p as [c o']. cbn [p_pc p_own] in *. now subst c.
    + left. exists i. apply master_in. exists p. split; [exact Hi|]. split; [|exact D].
      destruct (i_locked _ _ I o El) as [_ B]. apply B. rewrite <- T2, (i_own _ _ I _ _ Hi D). exact Hi.
  - intros X. destruct (lock_taken w) eqn:E; [reflexivity|]. exfalso. pose proof (free_lock _ _ I E) as F.
    destruct X as [[i X]|[i [o X]]].
    + apply master_in in X as (p & Hp & Hh & _). rewrite (F _ _ Hp) in Hh. discriminate.
    + specialize (F _ _ X). discriminate.
Qed.
(* A keyd that meets the lock ends and leaves everything as it is; *)
Theorem C73_second : forall l j u ok, execs l -> let w := acts world0 l in
  (exists i, master w i) \/ command_runs w -> is_at w j POpened ->
  let w' := act_step w (ANext j u ok) in
  (forall c, ~ is_at w' j c) /\ (forall i c, i <> j -> (is_at w' i c <-> is_at w i c)) /\ w_path w' = w_path w /\ lock_taken w' = true.
Proof.
  intros l j u ok He w Hm [o Hj] w'. pose proof (inv_of l He) as I. fold w in I.
  assert (T : lock_taken w = true) by (apply C73_lock; assumption).
  assert (E : w' = mkW (drop (w_procs w) j) (w_next w) (w_lock w) (w_path w) (w_listen w)).
  { unfold w', act_step. rewrite (in_find _ _ _ (i_nodup _ _ I) Hj). unfold next. cbn [p_pc]. now rewrite T. }
  rewrite E. split; [|split; [|split]].
  - intros c [o' X]. cbn [w_procs] in X. apply in_drop in X as [X _]. congruence.
  - intros i c Hn. unfold is_at. cbn [w_procs]. split; intros [o' X]; exists o'; [apply in_drop in X; tauto|].
    apply in_drop. auto.
  - reflexivity.
  - assert (He' : execs (l ++ [ADie j])).
    { intros k X. apply in_app_or in X as [X|[X|[]]]; [now apply (He k)|discriminate X]. }
    assert (W : mkW (drop (w_procs w) j) (w_next w) (w_lock w) (w_path w) (w_listen w) = acts world0 (l ++ [ADie j])).
    { unfold acts. rewrite fold_left_app. reflexivity. }
    rewrite W. apply C73_lock; [exact He'|]. rewrite <- W.
    destruct Hm as [[i Hm]|[i [o' Hm]]].
    + left. exists i. apply master_in in Hm as (p & Hp & Hh & Hn). apply master_in. exists p. split; [|auto].
      cbn [w_procs]. apply in_drop. split; [|exact Hp]. intros ->. rewrite (unique_in _ _ _ _ _ I Hp Hj) in Hh. discriminate.
    + right. exists i, o'. cbn [w_procs]. apply in_drop. split; [|exact Hm]. intros ->.
      pose proof (unique_in _ _ _ _ _ I Hm Hj). discriminate.
Qed.
(* and once no daemon and no command of one is left, the next keyd serves, with its own socket
   at the address in place of what was left there. *)
Theorem C73_takes_over : forall l u, execs l -> let w := acts world0 l in
  (forall i, ~ master w i) -> ~ command_runs w ->
  let n := w_next w in
  let w' := acts w (AStart :: repeat (ANext n u true) 7) in
  serves w' n /\ w_path w' = Some (n, 432%N).
Proof.
  intros l u He w Hm Hc n w'.
  enough (E : w' = mkW ((n, mkProc PServing n) :: w_procs w) (S n) (Some n) (Some (n, 432%N)) (n :: w_listen w)).
  { rewrite E. split; [|reflexivity]. exists n. cbn [w_procs]. now left. }
  pose proof (inv_of l He) as I. fold w in I.
  assert (T : lock_taken w = false).
  { destruct (lock_taken w) eqn:E; [|reflexivity]. exfalso. apply C73_lock in E; [|exact He]. destruct E as [[i E]|E]; [now apply (Hm i)|auto]. }
  unfold w', acts. cbn [repeat fold_left].
  change (act_step w AStart) with (mkW ((n, mkProc PNew n) :: w_procs w) (S n) (w_lock w) (w_path w) (w_listen w)).
  assert (P1 : forall c ps, find_proc ((n, mkProc c n) :: ps) n = Some (mkProc c n)) by (intros; cbn [find_proc]; now rewrite Nat.eqb_refl).
  assert (S1 : forall c c' ps, set_pc ((n, mkProc c n) :: ps) n c' = (n, mkProc c' n) :: set_pc ps n c') by (intros; cbn [set_pc p_own]; now rewrite Nat.eqb_refl).
  assert (Nn : forall ps c, (forall p, ~ In (n, p) ps) -> set_pc ps n c = ps).
  { induction ps as [|[j q] ps IH]; intros c H; [reflexivity|]. cbn [set_pc]. destruct (Nat.eqb_spec j n) as [E|E].
    - subst. exfalso. apply (H q). now left.
    - rewrite IH; [reflexivity|]. intros p X. apply (H p). now right. }
  assert (No : forall p, ~ In (n, p) (w_procs w)) by (intros p H; apply (i_fresh _ _ I) in H; unfold n in H; lia).
  assert (St : forall c lock path listen, act_step (mkW ((n, mkProc c n) :: w_procs w) (S n) lock path listen) (ANext n u true) =
    next (mkW ((n, mkProc c n) :: w_procs w) (S n) lock path listen) n (mkProc c n) u true).
  { intros. unfold act_step. cbn [w_procs]. now rewrite P1. }
  rewrite St. unfold next at 1, to. cbn [p_pc w_procs w_next w_lock w_path w_listen]. rewrite S1, Nn by exact No.
  rewrite St. unfold next at 1, to. cbn [p_pc w_procs w_next w_lock w_path w_listen]. rewrite S1, Nn by exact No.
  rewrite St. unfold next at 1. cbn [p_pc w_procs w_next w_lock w_path w_listen p_own]. rewrite S1, Nn by exact No.
  assert (T' : lock_taken (mkW ((n, mkProc POpened n) :: w_procs w) (S n) (w_lock w) (w_path w) (w_listen w)) = false).
  { unfold lock_taken in *. cbn [w_lock w_procs existsb snd has_lock p_pc p_own andb]. destruct (w_lock w) as [o|] eqn:El; [|reflexivity].
    destruct (i_locked _ _ I o El) as [Hlt _]. destruct (Nat.eqb_spec n o) as [E|E]; [unfold n in E; lia|]. exact T. }
  rewrite T'.
  rewrite St. unfold next at 1. cbn [p_pc w_procs w_next w_lock w_path w_listen p_own]. rewrite S1, Nn by exact No.
  rewrite St. unfold next at 1. cbn [p_pc w_procs w_next w_lock w_path w_listen p_own]. rewrite S1, Nn by exact No.
  rewrite St. unfold next at 1. cbn [p_pc w_procs w_next w_lock w_path w_listen p_own]. rewrite S1, Nn by exact No.
  rewrite St. unfold next at 1. cbn [p_pc w_procs w_next w_lock w_path w_listen p_own]. rewrite S1, Nn by exact No.
  reflexivity.
Qed.

(* Two start at once, their steps interleaved; the second to reach the lock ends.  The first
   runs a command. *)
Definition starts (i : nat) (n : nat) : list act := repeat (ANext i 18 true) n.
Definition both : list act := [AStart; AStart] ++ starts 0 2 ++ starts 1 3 ++ starts 0 1 ++ starts 1 4 ++ [AFork 1 true].
Example C73_ex : execs both /\ permitted both /\ serves (acts world0 both) 1 /\ is_at (acts world0 both) 2 PCommand /\
  w_path (acts world0 both) = Some (1%nat, 432%N) /\ (forall c, ~ is_at (acts world0 both) 0 c).
Proof.
  assert (E : acts world0 both = mkW [(2, mkProc PCommand 1); (1, mkProc PServing 1)]%nat 3 (Some 1%nat) (Some (1%nat, 432%N)) [1%nat])
    by (vm_compute; reflexivity).
  split; [intros i X; vm_compute in X; intuition discriminate|].
  split; [intros i u X; vm_compute in X; intuition discriminate|]. rewrite E.
  split; [exists 1%nat; right; now left|]. split; [exists 1%nat; now left|]. split; [reflexivity|].
  intros c [o X]. cbn [w_procs In] in X. intuition discriminate.
Qed.

(* A command that outlives the daemon has its descriptors: the next keyd refuses to start, and
   clients connect to a socket that nobody serves. *)
Theorem C73_inherited_refuted : exists l, execs l /\ permitted l /\ let w := acts world0 l in
  (forall i, ~ master w i) /\ connects w 16 = true /\
  forall u, let w' := acts w (AStart :: repeat (ANext (w_next w) u true) 7) in forall i, ~ master w' i.
Proof.
  exists (AStart :: starts 0 7 ++ [AFork 0 true; ADie 0]).
  assert (E : acts world0 (AStart :: starts 0 7 ++ [AFork 0 true; ADie 0]) =
    mkW [(1, mkProc PCommand 0)]%nat 2 (Some 0%nat) (Some (0%nat, 432%N)) [0%nat]) by (vm_compute; reflexivity).
  split; [intros i X; vm_compute in X; intuition discriminate|].
  split; [intros i u X; vm_compute in X; intuition discriminate|]. rewrite E.
  split; [|split; [reflexivity|]].
  - intros i X. apply master_in in X as (p & [X|[]] & _ & Hn). injection X as <- <-. now apply Hn.
  - intros u w2 i X. apply master_in in X as (p & Hp & _ & Hn). vm_compute in Hp. destruct Hp as [Hp|[]].
    injection Hp as <- <-. now apply Hn.
Qed.
(* If execl fails the child goes on as a second daemon *)
Theorem C73_twin_refuted : exists l i j, i <> j /\ serves (acts world0 l) i /\ serves (acts world0 l) j.
Proof.
  exists (AStart :: starts 0 7 ++ [AFork 0 false]), 0%nat, 1%nat.
  assert (E : acts world0 (AStart :: starts 0 7 ++ [AFork 0 false]) =
    mkW [(1, mkProc PServing 0); (0, mkProc PServing 0)]%nat 2 (Some 0%nat) (Some (0%nat, 432%N)) [0%nat]) by (vm_compute; reflexivity).
  rewrite E. split; [discriminate|]. split; exists 0%nat; cbn [w_procs]; [right; now left|now left].
Qed.
(* With an umask of 0 everybody can connect for a moment *)
Theorem C73_window_refuted : exists l, execs l /\ permitted l /\ connects (acts world0 l) 2 = true.
Proof.
  exists (AStart :: repeat (ANext 0 0 true) 6).
  split; [intros i X; vm_compute in X; intuition discriminate|].
  split; [intros i u X; vm_compute in X; intuition discriminate|]. vm_compute. reflexivity.
Qed.

Definition C73_all := (C73_one, C73_address, C73_undisturbed, C73_lock, C73_second, C73_takes_over, C73_inherited_refuted,
  C73_twin_refuted, C73_window_refuted).
Print Assumptions C73_all.
