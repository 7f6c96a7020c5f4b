(* C66: which configuration every device has, at every moment of a run. *)
From Coq Require Import String ZArith Lia.
From Verif Require Import Base Lib Types Str Keys Kbd Config SpecText MatchProofs Match Device Daemon Identify SpecDaemon SpecIdentify
  IdentifyProofs BoundProofs Hist WfHist PropText PropDaemon PropIdentify.
Local Open Scope list_scope.
Local Open Scope N_scope.
Local Notation length := List.length.

Lemma accepted_unique ts fs : accepted ts fs -> forall fs', accepted ts fs' -> fs = fs'.
Proof.
  induction 1 as [|t c ts fs Hc H IH|t ts fs Hc H IH]; intros fs' H'; inversion H'; subst; try congruence; auto.
  - rewrite Hc in *. match goal with X : Ok (Some c) = Ok (Some ?d) |- _ => injection X as <- end. f_equal. auto.
Qed.
Lemma accepted_parse ts fs : accepted ts fs -> Forall2 (fun t c => config_parse t = Ok (Some c)) (map fst fs) (map snd fs).
Proof.
  induction 1 as [|t c ts fs Hc H IH|t ts fs Hc H IH]; [constructor| |exact IH]. rewrite !map_app. apply Forall2_app; [exact IH|].
  constructor; [exact Hc|constructor].
Qed.

(* The configurations in use are those of the files accepted when they were last read. *)
Theorem C66_files : forall fuel wr G texts l, lives fuel wr G texts l ->
  exists fs, accepted (loaded texts (lp_calls l)) fs /\ map k_orig (d_ents (lp_d l)) = map snd fs.
Proof. intros fuel wr G texts l H. apply runs_bound in H as [A _]. exact A. Qed.
(* Every device is bound to the file that the rules of the files choose for it, unless it
   could not be grabbed; it is grabbed exactly while it is bound. *)
Theorem C66_bound : forall fuel wr G texts l fs rss dv, lives fuel wr G texts l ->
  accepted (loaded texts (lp_calls l)) fs -> Forall2 file_rules fs rss -> In dv (d_devs (lp_d l)) ->
  exists n, found_at n dv /\
    ((exists p, nd_id n = Some (0x0FAC, p)) /\ dv_data dv = None \/
     (forall p, nd_id n <> Some (0x0FAC, p)) /\ exists mouse keyboard o,
       (mouse = true <-> pointer_like n) /\ (keyboard = true <-> keyboard_like n) /\
       chosen rss (SpecText.mkDev (dv_id dv) mouse keyboard) o /\
       (dv_data dv = option_map (pair (d_gen (lp_d l))) o \/ dv_data dv = None /\ G false))
    /\ (dv_grabbed dv = true <-> dv_data dv <> None).
Proof.
  intros fuel wr G texts l fs rss dv H Ha Hr Hi. apply runs_bound in H as [(fs' & A & B) C].
  rewrite (accepted_unique _ _ A _ Ha) in B. clear A fs'. rewrite Forall_forall in C. apply C in Hi as [[n F] M]. clear C.
  exists n. split; [exact F|]. destruct F as (dv0 & [_ T] & Fi & Fc & Fv & _).
  destruct (C65_kind n dv0 T) as (K1 & K2 & K3 & K4 & _). rewrite <- Fc in K1, K2, K3. rewrite <- Fv in K4.
  destruct (dv_virtual dv).
  { destruct M as [M1 M2]. split; [left; split; [now apply K4|exact M1]|]. rewrite M1, M2. split; [discriminate|easy]. }
  assert (S := C39_select (map fst fs) (map snd fs) rss (dv_id dv) (dv_caps dv) (accepted_parse _ _ Ha)). cbv zeta in S.
  destruct S as [S _].
  { clear -Hr. induction Hr as [|f rs fs rss H Hr IH]; [constructor|]. cbn [map]. constructor; [exact H|exact IH]. }
  rewrite <- B in S. fold (flags dv) in S. split.
  - right. split; [intros p Hp; apply K4 in Hp || (assert (X : false = true) by (apply K4; eauto); discriminate X)|].
    exists (N.testbit (dv_caps dv) 0 || N.testbit (dv_caps dv) 1), (N.testbit (dv_caps dv) 2), (lookup_config_ent (origs (lp_d l)) (dv_id dv) (flags dv)).
    split; [rewrite Bool.orb_true_iff, K2, K3; unfold pointer_like; tauto|]. split; [exact K1|]. split; [exact S|].
    destruct (lookup_config_ent _ _ _) as [i|]; cbn [option_map]; [|left; tauto]. destruct M as [[M _]|[M [_ Hg]]]; auto.
  - destruct (lookup_config_ent _ _ _) as [i|]; [|destruct M as [M1 M2]; rewrite M1, M2; easy].
    destruct M as [[M1 M2]|[M1 [M2 _]]]; rewrite M1, M2; easy.
Qed.
(* With grabs that succeed this leaves no choice. *)
Theorem C66_exact : forall fuel wr texts l fs rss dv n o mouse keyboard, lives fuel wr (fun b => b = true) texts l ->
  accepted (loaded texts (lp_calls l)) fs -> Forall2 file_rules fs rss -> In dv (d_devs (lp_d l)) ->
  found_at n dv -> (forall p, nd_id n <> Some (0x0FAC, p)) ->
  (mouse = true <-> pointer_like n) -> (keyboard = true <-> keyboard_like n) ->
  chosen rss (SpecText.mkDev (dv_id dv) mouse keyboard) o -> dv_data dv = option_map (pair (d_gen (lp_d l))) o.
Proof.
  intros fuel wr texts l fs rss dv n o mouse keyboard H Ha Hr Hi (dv0 & [_ T] & Fi & Fc & Fv & _) V Hm Hk Hc.
  assert (B := H). apply runs_bound in B as [(fs' & A & B) C].
  rewrite (accepted_unique _ _ A _ Ha) in B. clear A fs'. rewrite Forall_forall in C. apply C in Hi as [_ M]. clear C.
  destruct (C65_kind n dv0 T) as (K1 & K2 & K3 & K4 & _). rewrite <- Fc in K1, K2, K3. rewrite <- Fv in K4.
  destruct (dv_virtual dv). { destruct (proj1 K4 eq_refl) as [p Hp]. now apply V in Hp. }
  assert (S := C39_select (map fst fs) (map snd fs) rss (dv_id dv) (dv_caps dv) (accepted_parse _ _ Ha)). cbv zeta in S.
  destruct S as [_ S].
  { clear -Hr. induction Hr as [|f rs fs rss H Hr IH]; [constructor|]. cbn [map]. constructor; [exact H|exact IH]. }
  assert (Em : mouse = N.testbit (dv_caps dv) 0 || N.testbit (dv_caps dv) 1).
  { apply Bool.eq_true_iff_eq. rewrite Hm, Bool.orb_true_iff, K2, K3. unfold pointer_like. tauto. }
  assert (Ekb : keyboard = N.testbit (dv_caps dv) 2) by (apply Bool.eq_true_iff_eq; now rewrite Hk, K1).
  rewrite Em, Ekb in Hc. apply S in Hc. rewrite <- B in Hc. fold (flags dv) in Hc. rewrite <- Hc in M. destruct o as [i|]; cbn [option_map].
  - destruct M as [[M _]|[_ [_ M]]]; [exact M|discriminate M].
  - apply M.
Qed.
(* The keyboard of a device exists and has the configuration of the file chosen. *)
Theorem C66_keyboard : forall fuel wr G texts l fs dv p, lives fuel wr G texts l -> accepted (loaded texts (lp_calls l)) fs ->
  In dv (d_devs (lp_d l)) -> dv_data dv = Some p ->
  exists k f, deref (lp_d l) p = Ok k /\ nth_error fs (snd p) = Some f /\ k_orig k = snd f.
Proof.
  intros fuel wr G texts l fs dv p H Ha Hi Hd. apply runs_bound in H as [(fs' & A & B) C].
  rewrite (accepted_unique _ _ A _ Ha) in B. clear A fs'. rewrite Forall_forall in C. apply C in Hi as [_ M]. clear C.
  destruct (dv_virtual dv). { destruct M as [M _]. congruence. }
  destruct (lookup_config_ent (origs (lp_d l)) (dv_id dv) (flags dv)) as [i|] eqn:E; [|destruct M; congruence].
  destruct M as [[M _]|[M _]]; [|congruence]. rewrite Hd in M. injection M as ->. cbn [snd].
  apply lookup_in in E. unfold deref. cbn [fst snd]. rewrite Nat.eqb_refl. unfold origs in E, B. rewrite map_length in E.
  destruct (nth_error (d_ents (lp_d l)) i) as [k|] eqn:Ek; [|apply nth_error_None in Ek; lia].
  assert (X : nth_error (map k_orig (d_ents (lp_d l))) i = Some (k_orig k)) by now apply map_nth_error.
  rewrite B in X. destruct (nth_error fs i) as [f|] eqn:Ef.
  - exists k, f. rewrite (map_nth_error snd _ _ Ef) in X. injection X as ->. auto.
  - apply nth_error_None in Ef. assert (nth_error (map snd fs) i <> None) by congruence. apply nth_error_Some in H. rewrite map_length in H. lia.
Qed.

(* ---- examples -------------------------------------------------------------------------------------- *)
(* a round in which nodes appear and a client sends a message *)
Definition finding (start stop : Z) (grab : bool) (ns : list node) (cl : list (imsg * list str)) : round :=
  mkRound start stop (fun _ => []) (map (fun x => (7%nat, fst x, snd x, fun _ => grab)) cl) (map (fun n => (dev_of n, grab)) ns).
Lemma bound_ex (G : bool -> Prop) (grab : bool) texts nodes (rs : list (list node * list (imsg * list str))) (P : lstate -> bool) :
  G grab -> forallb takenb nodes = true -> forallb (fun x => forallb takenb (fst x)) rs = true ->
  (match (l <- start 50 all_ok texts (map dev_of nodes) (fun _ => grab) 1 ;;
          loop 50 all_ok (map (fun x => finding 2 3 grab (fst x) (snd x)) rs) l) with Ok l => P l | _ => false end) = true ->
  exists l, lives 50 all_ok G texts l /\ P l = true.
Proof.
  intros Hg Hn Hr H.
  assert (Rec : forall ns, forallb takenb ns = true -> Forall recognised (map dev_of ns)).
  { intros ns A. rewrite forallb_forall in A. apply Forall_forall. intros dv B. apply in_map_iff in B as (n & <- & B).
    exists n. apply takenb_ok. auto. }
  destruct (start _ _ _ _ _ _) as [l0| | |] eqn:E0; cbn [bind] in H; try discriminate H.
  assert (L : lives 50 all_ok G texts l0) by (eapply lives_start; [apply Rec; exact Hn| |exact E0]; auto). clear E0.
  revert l0 L H Hr. induction rs as [|[ns cl] rs IH]; intros l0 L H Hr; cbn [map loop fst snd] in H.
  - exists l0. auto.
  - destruct (loop_round _ _ _ l0) as [l1| | |] eqn:E1; cbn [bind] in H; try discriminate H.
    cbn [forallb fst] in Hr. apply Bool.andb_true_iff in Hr as [Hr1 Hr2]. apply (IH l1); auto.
    eapply lives_round; [exact L| | |exact E1]; cbn [finding r_added r_clients].
    + apply Rec in Hr1. clear -Hr1 Hg. induction ns as [|n ns IH]; [constructor|]. cbn [map] in *. inversion Hr1; subst. constructor; auto.
    + apply Forall_forall. intros x B. apply in_map_iff in B as (y & <- & _). auto.
Qed.
Definition everything : str := Eval vm_compute in concat (map (fun l => bs l ++ [10]) ["[ids]"; "*"; "[main]"; "a = b"]%string).
Definition one_mouse : str := Eval vm_compute in concat (map (fun l => bs l ++ [10]) ["[ids]"; "m:046d"; "[main]"; "leftmouse = a"]%string).
Definition one_keyboard : str := Eval vm_compute in concat (map (fun l => bs l ++ [10]) ["[ids]"; "046d:c52b"; "[main]"; "a = c"]%string).
Definition a_node := keyboard_node (bs "AT keyboard") 0x46d 0xc52b.
Definition m_node := mouse_node (bs "M705") 0x46d 0x101b.
Definition o_node := own_keyboard (bs "/dev/input/event9").
Definition ptr_eqb (a b : option kptr) : bool :=
  match a, b with None, None => true | Some p, Some q => Nat.eqb (fst p) (fst q) && Nat.eqb (snd p) (snd q) | _, _ => false end.
Definition datab (d : dstate) (l : list (option kptr)) : bool :=
  Nat.eqb (length (d_devs d)) (length l) && forallb (fun x => ptr_eqb (dv_data (fst x)) (snd x)) (combine (d_devs d) l).
Lemma datab_ok d l : datab d l = true -> map dv_data (d_devs d) = l.
Proof.
  unfold datab. intros H. apply Bool.andb_true_iff in H as [A B]. apply Nat.eqb_eq in A. revert l A B.
  induction (d_devs d) as [|dv ds IH]; intros [|p l] A B; cbn [length] in A; try discriminate A; [reflexivity|].
  cbn [combine forallb fst snd] in B. apply Bool.andb_true_iff in B as [B1 B2]. cbn [map]. f_equal; [|apply IH; [now injection A|exact B2]].
  destruct (dv_data dv) as [[a b]|], p as [[a' b']|]; cbn [ptr_eqb fst snd] in B1; try discriminate B1; [|reflexivity].
  apply Bool.andb_true_iff in B1 as [X Y]. apply Nat.eqb_eq in X, Y. congruence.
Qed.
(* A keyboard and keyd's own one are there at the start, a mouse is plugged in; the files
   are a wildcard (index 1) and one for mice (index 0).  Then a file for the keyboard takes the
   place of the one for mice. *)
Example C66_ex : exists l l', lives 50 all_ok (fun b => b = true) [everything; one_mouse] l /\ lives 50 all_ok (fun b => b = true) [everything; one_mouse] l' /\
  map dv_data (d_devs (lp_d l)) = [Some (1, 1)%nat; None; Some (1, 0)%nat] /\
  map dv_data (d_devs (lp_d l')) = [Some (2, 0)%nat; None; None].
Proof.
  destruct (bound_ex (fun b => b = true) true [everything; one_mouse] [a_node; o_node] [([m_node], [])]
    (fun l => datab (lp_d l) [Some (1, 1)%nat; None; Some (1, 0)%nat])) as (l & L & H); try reflexivity; [vm_compute; reflexivity..|].
  destruct (bound_ex (fun b => b = true) true [everything; one_mouse] [a_node; o_node] [([m_node], []); ([], [(mkMsg IReload 0 [] 0, [everything; one_keyboard])])]
    (fun l => datab (lp_d l) [Some (2, 0)%nat; None; None])) as (l' & L' & H'); try reflexivity; [vm_compute; reflexivity..|].
  exists l, l'. apply datab_ok in H. apply datab_ok in H'. auto.
Qed.
Example C66_ex_files : exists fs, accepted [everything; one_mouse] fs /\ map fst fs = [one_mouse; everything].
Proof.
  exists [(one_mouse, cfg_of one_mouse); (everything, cfg_of everything)]. split; [|reflexivity].
  apply (accepted_yes everything (cfg_of everything) [one_mouse] [(one_mouse, cfg_of one_mouse)]); [apply parsesb_ok; vm_compute; reflexivity|].
  apply (accepted_yes one_mouse (cfg_of one_mouse) [] []); [apply parsesb_ok; vm_compute; reflexivity|constructor].
Qed.

(* Without the assumption on grabs: another program has grabbed the keyboard, which then has no
   configuration although a file names it. *)
Theorem C66_grabbed_refuted : exists l dv, lives 50 all_ok (fun _ => True) [one_keyboard] l /\ In dv (d_devs (lp_d l)) /\
  starts (bs "046d:c52b") (dv_id dv) /\ dv_data dv = None.
Proof.
  destruct (bound_ex (fun _ => True) false [one_keyboard] [a_node] []
    (fun l => match d_devs (lp_d l) with [dv] => has_prefix (bs "046d:c52b") (dv_id dv) && ptr_eqb (dv_data dv) None | _ => false end))
    as (l & L & H); [exact Logic.I|vm_compute; reflexivity..|].
  destruct (d_devs (lp_d l)) as [|dv [|? ?]] eqn:E; try discriminate H. exists l, dv. apply Bool.andb_true_iff in H as [H1 H2].
  split; [exact L|]. rewrite E. split; [now left|]. split; [|destruct (dv_data dv); [discriminate H2|reflexivity]].
  now apply has_prefix_starts.
Qed.
Definition C66_all := (C66_files, C66_bound, C66_exact, C66_keyboard, C66_ex, C66_ex_files, C66_grabbed_refuted).
Print Assumptions C66_all.
