(* C83: what happens outside of a keyboard does not reach it. *)
From Coq Require Import String.
From Verif Require Import Base Lib Keys Types MacroExec Kbd Config Engine Outside Hist LookupProofs SpecAway AwayProofs.
Local Open Scope nat_scope.

Lemma like_alike k k' : like k k' -> alike k k'.
Proof.
  intros H. split; [exact (like_out k k' H)|]. split; [exact (like_ks k k' H)|]. split; [exact (like_cfg k k' H)|].
  intros i. destruct (like_ls k k' i H) as (A & B & _). auto.
Qed.
Lemma like_does a k k' : like k k' -> RR likep (does a k) (does a k').
Proof.
  intros H. destruct a as [fuel evs|exp]; cbn [does].
  - pose proof (like_events fuel evs k k' H) as G. destruct (kbd_process_events fuel k evs) as [[x t]| | |], (kbd_process_events fuel k' evs) as [[y u]| | |]; try contradiction; try exact G.
    destruct G as [G1 G2]. cbn [fst snd] in *. subst u. now split.
  - pose proof (like_eval exp k k' H) as G. destruct (kbd_eval k exp) as [[x t]| | |], (kbd_eval k' exp) as [[y u]| | |]; try contradiction; try exact G.
    destruct G as [G1 G2]. cbn [fst snd] in *. subst u. now split.
Qed.
Lemma alone_snoc a : forall acts k k1 rs, alone acts k = Ok (k1, rs) -> forall k2 r, does a k1 = Ok (k2, r) -> alone (acts ++ [a]) k = Ok (k2, rs ++ [r]).
Proof.
  induction acts as [|b acts IH]; intros k k1 rs E k2 r E2; cbn [alone app] in *.
  - injection E as <- <-. now rewrite E2.
  - destruct (does b k) as [[x rx]| | |]; try discriminate. destruct (alone acts x) as [[y ry]| | |] eqn:Ey; try discriminate.
    injection E as <- <-. now rewrite (IH _ _ _ Ey _ _ E2).
Qed.
Lemma like_new c clk clk' : (2 <= clk)%Z -> (2 <= clk')%Z -> like (new_keyboard c clk) (new_keyboard c clk').
Proof.
  intros H H'. exists (k_ls (new_keyboard c clk)), clk', (k_scroll (new_keyboard c clk)). split; [reflexivity|]. split; [|split; reflexivity].
  change (k_clock (new_keyboard c clk)) with clk.
  assert (G : forall i, (0 <= l_time (k_ls (new_keyboard c clk) i) <= 1)%Z).
  { intros i. unfold new_keyboard. cbn [k_ls]. unfold nupd. destruct (c_default_layout c); [|destruct (find_layout _ _ _) as [j|]]; repeat (destruct (Nat.eqb _ _)); cbn; lia. }
  split.
  - intros i. repeat split.
  - auto.
  - intros i. specialize (G i). lia.
  - intros i j. tauto.
  - intros i. tauto.
Qed.
Lemma life_like c clk clk' acts rs k : (2 <= clk)%Z -> (2 <= clk')%Z -> life c clk acts rs k ->
  exists k', alone acts (new_keyboard c clk') = Ok (k', rs) /\ like k k'.
Proof.
  intros H H' L. induction L as [|acts rs a k k1 r L IH E|acts rs k k1 L IH O].
  - exists (new_keyboard c clk'). split; [reflexivity|now apply like_new].
  - destruct IH as (k' & A & B). pose proof (like_does a k k' B) as G. rewrite E in G. destruct (does a k') as [[k2 r2]| | |] eqn:E2; try contradiction.
    destruct G as [G1 G2]. cbn [fst snd] in *. subst r2. exists k2. split; [|exact G1]. eapply alone_snoc; eauto.
  - destruct IH as (k' & A & B). exists k'. split; [exact A|]. eapply like_outside; eauto.
Qed.

(* For all configurations, however the clock stood when the keyboard was made (past its
   first tick), whatever the rest of the daemon does in between: a keyboard in company is
   at every moment indistinguishable from one that ran alone through the same calls and
   bindings; it has written the same, answered the same delays, and holds the same keys
   and layers. *)
Theorem C83_alone : forall c clk clk' acts rs k,
  (2 <= clk)%Z -> (2 <= clk')%Z -> life c clk acts rs k ->
  exists k', alone acts (new_keyboard c clk') = Ok (k', rs) /\ alike k k'.
Proof.
  intros c clk clk' acts rs k H H' L. destruct (life_like c clk clk' acts rs k H H' L) as (k' & A & B).
  exists k'. split; [exact A|now apply like_alike].
Qed.

(* Two keyboards with the same configuration that were asked the same, in whatever company. *)
Theorem C83_same : forall c clk clk' acts rs rs' k k',
  (2 <= clk)%Z -> (2 <= clk')%Z -> life c clk acts rs k -> life c clk' acts rs' k' -> rs' = rs /\ alike k k'.
Proof.
  intros c clk clk' acts rs rs' k k' H H' L L'.
  destruct (life_like c clk 2 acts rs k H ltac:(lia) L) as (x & A & B). destruct (life_like c clk' 2 acts rs' k' H' ltac:(lia) L') as (y & A' & B').
  rewrite A' in A. injection A as -> ->. split; [reflexivity|].
  apply like_alike in B, B'. destruct B as (B1 & B2 & B3 & B4), B' as (C1 & C2 & C3 & C4). split; [congruence|]. split; [congruence|]. split; [congruence|].
  intros i. destruct (B4 i), (C4 i). split; congruence.
Qed.

(* And the next call or binding has the same outcome for both, even when it is an abort
   of the daemon or undefined behaviour. *)
Theorem C83_next : forall c clk clk' acts rs rs' k k' a,
  (2 <= clk)%Z -> (2 <= clk')%Z -> life c clk acts rs k -> life c clk' acts rs' k' -> agree (does a k) (does a k').
Proof.
  intros c clk clk' acts rs rs' k k' a H H' L L'.
  destruct (life_like c clk 2 acts rs k H ltac:(lia) L) as (x & A & B). destruct (life_like c clk' 2 acts rs' k' H' ltac:(lia) L') as (y & A' & B').
  rewrite A' in A. injection A as -> ->. pose proof (like_does a k x B) as G. pose proof (like_does a k' x B') as G'. unfold agree.
  destruct (does a k) as [[u ru]| | |], (does a x) as [[v rv]| | |], (does a k') as [[w rw]| | |]; cbn [RR] in *; try contradiction; try exact Logic.I; [|congruence].
  destruct G as [G1 G2], G' as [G3 G4]. cbn [fst snd] in *. split; [|congruence].
  apply like_alike in G1, G3. destruct G1 as (B1 & B2 & B3 & B4), G3 as (C1 & C2 & C3 & C4). split; [congruence|]. split; [congruence|]. split; [congruence|].
  intros i. destruct (B4 i), (C4 i). split; congruence.
Qed.

(* The case: a layer held, another keyboard switching layers meanwhile, scroll motion, a
   binding changed through the socket. *)
Definition away_cfg : config := cfg_of (bs "[ids]
*
[main]
q = layer(nav)
w = layer(sym)
[nav]
a = 1
[sym]
a = 2
").
Definition down c t := mkKev c true t.
Definition up c t := mkKev c false t.
Definition away_acts : list act :=
  [Given 9 [down 16 10; up 16 20]; Given 9 [down 17 30]; Told (bs "sym.a = 3"); Given 9 [down 16 40; down 30 50; up 30 60; up 16 70; down 30 80]]%N%Z.
Definition outs (r : res (kbd * list answered)) : option (list oev) := match r with Ok (k, _) => Some (k_out k) | _ => None end.
Example C83_example_alone : outs (alone away_acts (new_keyboard away_cfg 2))
  = Some [OKey 4 true; OLayer 6 false true; OKey 2 false; OKey 2 true; OLayer 6 true true; OLayer 7 true true; OLayer 6 false false; OLayer 6 true true]%N.
Proof. vm_compute. reflexivity. Qed.

(* the keyboard in company: the clock is advanced to 40, the pointer moves, the clock is advanced again *)
Definition jump (t : Z) (k : kbd) : kbd := if (k_clock k <=? t)%Z then set_k_clock t k else k.
Lemma life_jump c clk acts rs k t : life c clk acts rs k -> life c clk acts rs (jump t k).
Proof.
  intros L. unfold jump. destruct (Z.leb_spec (k_clock k) t); [|exact L]. eapply life_outside; [exact L|]. now apply out_clock.
Qed.
Definition nudge (k : kbd) : kbd := set_k_scroll (mkScroll 3 5 (s_sens (k_scroll k)) (s_active (k_scroll k))) k.
Lemma life_nudge c clk acts rs k : life c clk acts rs k -> life c clk acts rs (nudge k).
Proof. intros L. eapply life_outside; [exact L|]. apply out_motion. Qed.
Fixpoint company (acts : list act) (k : kbd) (t : Z) : option (kbd * list answered) :=
  match acts with
  | [] => Some (k, [])
  | a :: rest =>
      match does a (jump t (nudge k)) with
      | Ok (k1, r) => match company rest k1 (t * 2) with Some (k2, rs) => Some (k2, r :: rs) | None => None end
      | _ => None
      end
  end.
Lemma company_life c clk : forall acts pre rs0 k t k' rs, life c clk pre rs0 k -> company acts k t = Some (k', rs) -> life c clk (pre ++ acts) (rs0 ++ rs) k'.
Proof.
  induction acts as [|a acts IH]; intros pre rs0 k t k' rs L E; cbn [company] in E.
  - injection E as <- <-. now rewrite !app_nil_r.
  - destruct (does a (jump t (nudge k))) as [[k1 r]| | |] eqn:E1; try discriminate. destruct (company acts k1 (t * 2)) as [[k2 rs2]|] eqn:E2; [|discriminate].
    injection E as <- <-. assert (L1 : life c clk (pre ++ [a]) (rs0 ++ [r]) k1) by (eapply life_act; [apply life_jump, life_nudge; exact L|exact E1]).
    pose proof (IH _ _ _ _ _ _ L1 E2) as L2. rewrite <- !app_assoc in L2. exact L2.
Qed.
Lemma company_ok c clk acts t out P :
  match company acts (new_keyboard c clk) t with Some (k, _) => outb (k_out k) out && P k | None => false end = true ->
  exists rs k, life c clk acts rs k /\ k_out k = out /\ P k = true.
Proof.
  destruct (company acts (new_keyboard c clk) t) as [[k rs]|] eqn:E; [|discriminate]. intros H. apply andb_prop in H as [H1 H2].
  exists rs, k. split; [|split; [now apply outb_ok|exact H2]]. exact (company_life c clk acts [] [] _ t k rs (life_start c clk) E).
Qed.
Example C83_example_company : exists rs k, life away_cfg 7 away_acts rs k
  /\ k_out k = [OKey 4 true; OLayer 6 false true; OKey 2 false; OKey 2 true; OLayer 6 true true; OLayer 7 true true; OLayer 6 false false; OLayer 6 true true]%N
  /\ (k_clock k =? 321)%Z && (l_time (k_ls k 6) =? 320)%Z && (l_time (k_ls k 7) =? 80)%Z = true.
Proof. apply (company_ok away_cfg 7 away_acts 40). vm_compute. reflexivity. Qed.

(* Without the lower bound on the clock it is false: the very first activation after the
   start of the daemon is stamped 1, the same as a layout, and loses against it.  If
   another keyboard has activated a layer before, it wins.  Same configuration, same
   calls: one types 3, the other 2. *)
Definition tie_cfg : config := cfg_of (bs "[ids]
*
[global]
default_layout = lay
[main]
q = layer(nav)
[nav]
a = 1
[lay:layout]
a = 2
").
Definition tie_acts : list act := [Given 9 [down 16 10]; Given 9 [down 30 20]]%N%Z.
Lemma tie_1 : exists rs k, life tie_cfg 1 tie_acts rs k /\ k_out k = [OKey 3 true; OLayer 6 true true]%N /\ true = true.
Proof. apply (company_ok tie_cfg 1 tie_acts 0 _ (fun _ => true)). vm_compute. reflexivity. Qed.
Lemma tie_2 : exists rs k, life tie_cfg 1 tie_acts rs k /\ k_out k = [OKey 2 true; OLayer 6 true true]%N /\ true = true.
Proof. apply (company_ok tie_cfg 1 tie_acts 40 _ (fun _ => true)). vm_compute. reflexivity. Qed.
Theorem C83_first_tick_refuted : exists c acts rs rs' k k',
  life c 1 acts rs k /\ life c 1 acts rs' k' /\ k_out k = [OKey 3 true; OLayer 6 true true]%N /\ k_out k' = [OKey 2 true; OLayer 6 true true]%N.
Proof.
  destruct tie_1 as (rs & k & A & B & _), tie_2 as (rs' & k' & A' & B' & _). exists tie_cfg, tie_acts, rs, rs', k, k'. auto.
Qed.
Definition C83_all := (C83_alone, C83_same, C83_next, C83_first_tick_refuted).
Print Assumptions C83_all.
