(* Proofs for C69: looking keys up, remembering them, and whole runs. *)
From Verif Require Import Base Lib Keys Types MacroExec Kbd Steps Hist SpecMods SpecLookup SpecDefer Outside ActProofs ModsProofs LookupProofs
  ClassInv StepProofs Engine OneProofs Inv DeferProofs SpecRef RefProofs RefSteps.
From Coq Require Import Permutation Sorting.Sorted.
Local Open Scope nat_scope.

(* ---- lists -------------------------------------------------------------------------- *)
Lemma find_first {A} (f : A -> bool) : forall l i, find f l = Some i ->
  exists l1 l2, l = l1 ++ i :: l2 /\ f i = true /\ forall x, In x l1 -> f x = false.
Proof.
  induction l as [|x l IH]; intros i H; cbn [find] in H; [discriminate|]. destruct (f x) eqn:E.
  - injection H as <-. exists [], l. split; [reflexivity|]. split; [exact E|]. intros ? [].
  - destruct (IH i H) as (l1 & l2 & -> & F & G). exists (x :: l1), l2. split; [reflexivity|]. split; [exact F|].
    intros y [<-|Y]; auto.
Qed.
Lemma has_max (g : nat -> nat) : forall l, l <> [] -> exists i, In i l /\ forall j, In j l -> g j <= g i.
Proof.
  induction l as [|x [|y l] IH]; intros H; [now elim H| |].
  - exists x. split; [now left|]. intros j [<-|[]]. lia.
  - destruct IH as (i & Hi & Hm); [discriminate|]. destruct (Nat.le_gt_cases (g i) (g x)) as [L|L].
    + exists x. split; [now left|]. intros j [<-|Hj]; [lia|]. specialize (Hm j Hj). lia.
    + exists i. split; [now right|]. intros j [<-|Hj]; [lia|auto].
Qed.
Lemma seq_sorted : forall n a, StronglySorted lt (seq a n).
Proof.
  induction n as [|n IH]; intros a; cbn [seq]; constructor; [apply IH|]. apply Forall_forall. intros x X. apply in_seq in X. lia.
Qed.
Lemma sorted_split {A} (R : A -> A -> Prop) l1 x l2 : StronglySorted R (l1 ++ x :: l2) -> forall y, In y l2 -> R x y.
Proof.
  induction l1 as [|z l1 IH]; cbn [app]; intros H; inversion_clear H as [|? ? H1 H2]; [|now apply IH].
  now rewrite Forall_forall in H2.
Qed.

(* the layers in order, latest first, then the layout and main *)
Lemma order_time (t : nat -> Z) (z : Z) rec lo l1 i l2 j : (1 <= z)%Z ->
  StronglySorted (fun x y => (t y < t x)%Z) rec -> (forall x, In x rec -> (z <= t x)%Z) ->
  (forall x, ~ In x rec -> (0 <= t x <= 1)%Z /\ (x = 0 \/ (t x < z)%Z)) ->
  lo = 0 \/ t lo = 1%Z -> rec ++ [lo; 0] = l1 ++ i :: l2 -> ~ In j l1 -> In j l2 ->
  (t j < t i)%Z \/ j = i \/ ((t j <= t i)%Z /\ j = 0).
Proof.
  intros Hz So Re Old Ba El N1 I2.
  assert (Last : ~ In 0 rec -> i = lo -> j = 0 -> (t j < t i)%Z \/ j = i \/ ((t j <= t i)%Z /\ j = 0)).
  { intros N0 -> ->. destruct Ba as [->|Ba]; [right; now left|]. apply Old in N0. right. right. split; [lia|reflexivity]. }
  apply app_eq_app in El as (l & [[E1 E2]|[E1 E2]]).
  - destruct l as [|x l]; cbn [app] in E2; injection E2 as E3 E4; subst.
    + rewrite app_nil_r in *. destruct I2 as [<-|[]]. now apply Last.
    + apply in_app_or in I2 as [I2|I2]; [left; now apply (sorted_split _ l1 x l So)|].
      destruct (in_dec Nat.eq_dec j (l1 ++ x :: l)) as [Ij|Nj].
      * apply in_app_or in Ij as [Ij|[<-|Ij]]; [contradiction|right; now left|]. left. now apply (sorted_split _ l1 x l So).
      * apply Old in Nj. specialize (Re x (in_elt x l1 l)). lia.
  - destruct l as [|x [|y l]]; cbn [app] in E2.
    + injection E2 as -> <-. rewrite app_nil_r in E1. subst l1. destruct I2 as [<-|[]]. now apply Last.
    + injection E2 as <- <- <-. destruct I2.
    + injection E2 as _ _ E2. now apply app_cons_not_nil in E2.
Qed.

Section Ref.
Variable c : config.
Variable pe : fringe.
Variable vw : N -> desc -> desc.
Notation S_ := (S_ c pe vw).
Notation used := (used vw).
Notation sim := (sim c pe vw).

(* ---- the binding a key uses ----------------------------------------------------------- *)
Lemma layer_the m k i : S_ m k -> layer_of k i = the c i.
Proof. intros H. unfold layer_of, the. now rewrite (r_cfg _ _ _ _ _ _ _ _ _ _ _ _ _ _ _ _ _ _ (proj2 H)). Qed.
Lemma the_out i : length (c_layers c) <= i -> the c i = zero_layer.
Proof. intros H. unfold the. now apply nth_overflow. Qed.
Lemma binds_bound m k i code d : S_ m k -> (binds k i code d <-> bound c code i = true /\ d = ly_keymap (the c i) code).
Proof.
  intros H. unfold binds. rewrite (layer_the m k i H), (r_cfg _ _ _ _ _ _ _ _ _ _ _ _ _ _ _ _ _ _ (proj2 H)). unfold bound. split.
  - intros (_ & <- & N0). split; [|reflexivity]. destruct (ly_keymap _ _); [now elim N0|reflexivity..].
  - intros [B ->]. split; [|split; [reflexivity|]].
    + destruct (Nat.lt_ge_cases i (length (c_layers c))) as [L|L]; [exact L|]. rewrite (the_out i L) in B. discriminate.
    + intros E. rewrite E in B. discriminate.
Qed.
Lemma lit_on m k i : S_ m k -> (lit m i = true <-> l_active (k_ls k i) <> 0%N).
Proof.
  intros H. rewrite (lit_active m k (r_act _ _ _ _ _ _ _ _ _ _ _ _ _ _ _ _ _ _ (proj2 H))). unfold is_active. now rewrite negb_true_iff, N.eqb_neq.
Qed.
Lemma bound_in code i : bound c code i = true -> i < length (c_layers c).
Proof. intros B. destruct (Nat.lt_ge_cases i (length (c_layers c))) as [L|L]; [exact L|]. unfold bound in B. rewrite (the_out i L) in B. discriminate. Qed.
Lemma matching_applies m k code i d : S_ m k -> (applies k i /\ binds k i code d <-> In i (combined c m code) /\ d = ly_keymap (the c i) code).
Proof.
  intros H. unfold combined. rewrite filter_In, (binds_bound m k i code d H). unfold applies, is_comp, size. rewrite (layer_the m k i H).
  unfold matching. rewrite !andb_true_iff, forallb_forall, negb_true_iff, Nat.eqb_neq. split.
  - intros ((A & B & C) & D & E). split; [|exact E]. split; [unfold layers; apply in_seq; apply bound_in in D; lia|].
    repeat split; [now rewrite A| |exact D|lia]. intros j Hj. apply (lit_on m k j H). now apply C.
  - intros ((_ & (((A & B) & D) & C)) & E). split; [|auto]. split; [destruct (ly_type (the c i)); [discriminate..|reflexivity]|].
    split; [lia|]. intros j Hj. apply (lit_on m k j H). now apply B.
Qed.
Lemma choose_lookup m k code : S_ m k -> physical code -> lookup_descriptor k code = choose c m code.
Proof.
  intros H P. destruct (choose c m code) as [d dl] eqn:E.
  assert (T : forall i, (0 <= l_time (k_ls k i))%Z).
  { intros i. destruct H as [_ []]. destruct (in_dec Nat.eq_dec i (m_recent m)) as [I|I]; [apply r_recent in I; pose proof (dawn_range c)|apply r_old in I]; lia. }
  assert (Hcc : is_chord_code code = false) by (destruct P as [_ P]; unfold is_chord_code; lia).
  assert (X : resolves k code d dl).
  { unfold choose in E. destruct (widest c (combined c m code)) as [i|] eqn:W.
    - injection E as <- <-. unfold widest in W. apply find_first in W as (l1 & l2 & El & Fi & F1). rewrite forallb_forall in Fi.
      assert (Ii : In i (combined c m code)) by (rewrite El; apply in_elt).
      destruct (proj2 (matching_applies m k code i _ H) (conj Ii eq_refl)) as [A B].
      apply by_composite; [exact A|exact B|]. intros j d' Aj Bj.
      destruct (proj1 (matching_applies m k code j d' H) (conj Aj Bj)) as [Ij _].
      unfold size. rewrite !(layer_the m k _ H). pose proof (Fi j Ij) as Lj. apply Nat.leb_le in Lj.
      destruct (Nat.eq_dec (length (ly_const (the c j))) (length (ly_const (the c i)))) as [Eq|Ne]; [|left; lia]. right. split; [exact Eq|].
      assert (Fj : forallb (fun x => Nat.leb (length (ly_const (the c x))) (length (ly_const (the c j)))) (combined c m code) = true).
      { apply forallb_forall. intros x Xx. rewrite Eq. now apply Fi. }
      rewrite El in Ij. apply in_app_or in Ij as [Ij|[<-|Ij]]; [rewrite (F1 j Ij) in Fj; discriminate|lia|].
      assert (So : StronglySorted lt (combined c m code)) by (unfold combined, layers; apply sorted_filter, seq_sorted).
      rewrite El in So. pose proof (sorted_split lt l1 i l2 So j Ij). lia.
    - assert (Nc : combined c m code = []).
      { destruct (combined c m code) as [|x l] eqn:C; [reflexivity|]. exfalso.
        destruct (has_max (fun j => length (ly_const (the c j))) (x :: l)) as (i & Ii & Mi); [discriminate|].
        unfold widest in W. pose proof (find_none _ _ W i Ii) as Z. cbv beta in Z.
        assert (forallb (fun j => Nat.leb (length (ly_const (the c j))) (length (ly_const (the c i)))) (x :: l) = true); [|congruence].
        apply forallb_forall. intros j Hj. apply Nat.leb_le. now apply Mi. }
      assert (Na : forall j d', applies k j -> ~ binds k j code d').
      { intros j d' A B. destruct (proj1 (matching_applies m k code j d' H) (conj A B)) as [I _]. rewrite Nc in I. destruct I. }
      pose proof (r_cfg _ _ _ _ _ _ _ _ _ _ _ _ _ _ _ _ _ _ (proj2 H)) as Ec.
      assert (Or : forall j, lit m j = true -> In j (order m)).
      { intros j Lj. unfold order. rewrite lit_count, Nat.ltb_lt in Lj. apply (r_on _ _ _ _ _ _ _ _ _ _ _ _ _ _ _ _ _ _ (proj2 H)) in Lj.
        apply in_or_app. destruct Lj as [Lj|[-> | -> ]]; [now left|right; now left|right; right; now left]. }
      destruct (find (fun i => lit m i && bound c code i) (order m)) as [i|] eqn:F.
      + injection E as <- <-. apply find_first in F as (l1 & l2 & El & Fi & F1). apply andb_true_iff in Fi as [Li Bi].
        apply by_layer; [exact Na| | |].
        * split; [rewrite Ec; now apply bound_in in Bi|now apply (lit_on m k i H)].
        * apply (binds_bound m k i code _ H). auto.
        * intros j d' [_ Lj] Bj. apply (binds_bound m k j code _ H) in Bj as [Bj _]. apply (lit_on m k j H) in Lj.
          pose proof (Or j Lj) as Ij. rewrite El in Ij. apply in_app_or in Ij as [Ij|Ij].
          { apply F1 in Ij. rewrite Lj, Bj in Ij. discriminate. }
          destruct Ij as [<-|Ij]; [right; split; [reflexivity|lia]|].
          (* order is by time *)
          unfold act_time. destruct H as [_ R]. unfold order in El.
          assert (O : (l_time (k_ls k j) < l_time (k_ls k i))%Z \/ j = i \/ ((l_time (k_ls k j) <= l_time (k_ls k i))%Z /\ j = 0)).
          { apply (order_time (fun x => l_time (k_ls k x)) (dawn c) (m_recent m) (m_layout m) l1 i l2 j).
            - apply dawn_range.
            - apply (r_sorted _ _ _ _ _ _ _ _ _ _ _ _ _ _ _ _ _ _ R).
            - intros x Hx. apply (r_recent _ _ _ _ _ _ _ _ _ _ _ _ _ _ _ _ _ _ R) in Hx. lia.
            - apply (r_old _ _ _ _ _ _ _ _ _ _ _ _ _ _ _ _ _ _ R).
            - apply (r_base _ _ _ _ _ _ _ _ _ _ _ _ _ _ _ _ _ _ R).
            - exact El.
            - intros Ij'. apply F1 in Ij'. rewrite Lj, Bj in Ij'. discriminate.
            - exact Ij. }
          destruct O as [O|[->|[O ->]]]; [now left|right; split; [reflexivity|lia]|]. destruct (Z.eq_dec (l_time (k_ls k 0)) (l_time (k_ls k i))); [right|left]; lia.
      + injection E as <- <-. apply SpecLookup.by_itself; [exact Na|]. intros j d' [_ Lj] Bj. apply (binds_bound m k j code _ H) in Bj as [Bj _].
        apply (lit_on m k j H) in Lj. pose proof (find_none _ _ F j (Or j Lj)) as Z. cbv beta in Z. rewrite Lj, Bj in Z. discriminate. }
  destruct (lookup_descriptor k code) as [d' dl'] eqn:E'. apply lookup_resolves in E'; auto.
  destruct (resolves_unique _ _ _ _ _ _ X E') as [-> ->]. reflexivity.
Qed.

(* ---- the keys remembered -------------------------------------------------------------- *)
Lemma used_app a b : used (a ++ b) = used a ++ used b.
Proof. unfold used. now rewrite filter_app, map_app. Qed.
Lemma upd_split {A} (x : A) : forall ca i (d : A), i < length ca -> exists l1 l2, ca = l1 ++ nth i ca d :: l2 /\ upd i x ca = l1 ++ x :: l2 /\ length l1 = i.
Proof.
  induction ca as [|e ca IH]; intros [|i] d L; cbn [length] in L; try lia.
  - exists [], ca. auto.
  - destruct (IH i d) as (l1 & l2 & E1 & E2 & E3); [lia|]. exists (e :: l1), l2. cbn [nth upd app length]. rewrite <- E1, E2, E3. auto.
Qed.
Lemma same_split {A} (x y : A) : forall l1 a1 l2 a2, l1 ++ x :: l2 = a1 ++ y :: a2 -> length l1 = length a1 -> l1 = a1 /\ l2 = a2.
Proof.
  induction l1 as [|z l1 IH]; intros [|w a1] l2 a2 E L; cbn [app length] in *; try lia.
  - now injection E.
  - injection E as -> E. destruct (IH a1 l2 a2 E) as [-> ->]; [lia|auto].
Qed.
Lemma used_In ca x : In x (used ca) <-> exists e, In e ca /\ ce_code e <> 0%N /\ x = (ce_code e, (vw (ce_code e) (ce_d e), ce_dl e)).
Proof.
  unfold used. rewrite in_map_iff. split.
  - intros (e & <- & H). apply filter_In in H as [H1 H2]. rewrite negb_true_iff, N.eqb_neq in H2. exists e. auto.
  - intros (e & H1 & H2 & ->). exists e. split; [reflexivity|]. apply filter_In. rewrite negb_true_iff, N.eqb_neq. auto.
Qed.
Lemma used_full ca : length (used ca) < length ca -> exists e, In e ca /\ ce_code e = 0%N.
Proof.
  unfold used. rewrite map_length. induction ca as [|e ca IH]; cbn [filter length]; [lia|].
  destruct (N.eqb_spec (ce_code e) 0) as [E|E]; cbn [negb length]; intros H; [exists e; split; [now left|exact E]|].
  destruct IH as (x & X & Y); [lia|]. exists x. split; [now right|exact Y].
Qed.
Lemma unheld_holding m k code : S_ m k -> code <> 0%N -> (unheld k code <-> holding code m = None).
Proof.
  intros [_ R] Hc. pose proof (r_used _ _ _ _ _ _ _ _ _ _ _ _ _ _ _ _ _ _ R) as U. unfold holding.
  destruct (find (fun h => (fst h =? code)%N) (m_held m)) as [h|] eqn:F; cbn [option_map]; split; intros H; try discriminate; try reflexivity.
  - exfalso. apply find_some in F as [F1 F2]. apply N.eqb_eq in F2. apply (Permutation_in _ (Permutation_sym U)) in F1.
    apply used_In in F1 as (e & E1 & E2 & ->). now apply (H e E1).
  - intros e He Ee. assert (I : In (ce_code e, (vw (ce_code e) (ce_d e), ce_dl e)) (m_held m)).
    { apply (Permutation_in _ U). apply used_In. exists e. rewrite Ee. auto. }
    apply (find_none _ _ F) in I. cbn [fst] in I. rewrite Ee, N.eqb_refl in I. discriminate.
Qed.
Lemma rest_cache a x x' m X k ca s : rest c pe vw a x m k -> map ce_code ca = s ->
  (swapping c = true -> forall e, In e ca -> ce_code e <> 0%N -> ce_layer e = if (ce_code e =? x')%N then 0 else mark (vw (ce_code e) (ce_d e))) ->
  Permutation (used ca) X -> NoDup (map fst X) -> length ca = 16 ->
  (forall h, In h X -> settled_action c (fst (snd h))) -> rest c pe vw a x' (with_held X (with_seats s m)) (set_k_cache ca k).
Proof. intros [] H5 H6 H1 H2 H3 H4. constructor; assumption. Qed.
(* the slot taken is the seat taken *)
Lemma slot_sit code : forall ca n acc, (forall e, In e ca -> ce_code e <> code) ->
  if existsb (N.eqb 0) (map ce_code ca) then
    exists i, cache_slot ca code n acc = Some (n + i) /\ i < length ca /\ forall new, ce_code new = code -> map ce_code (upd i new ca) = sit code (map ce_code ca)
  else cache_slot ca code n acc = acc.
Proof.
  induction ca as [|e ca IH]; intros n acc Un; cbn [map existsb cache_slot length sit]; [reflexivity|].
  destruct (N.eqb_spec (ce_code e) code) as [Ee|_]; [now elim (Un e (or_introl eq_refl))|].
  specialize (IH (S n) (if (ce_code e =? 0)%N then Some n else acc) (fun e' I => Un e' (or_intror I))).
  rewrite (N.eqb_sym 0 (ce_code e)). destruct (existsb (N.eqb 0) (map ce_code ca)).
  - rewrite orb_true_r, andb_false_r. destruct IH as (i & I1 & I2 & I3). exists (S i). split; [rewrite I1; f_equal; lia|]. split; [lia|].
    intros new En. cbn [upd map]. now rewrite I3.
  - rewrite orb_false_r, andb_true_r. rewrite IH. destruct (ce_code e =? 0)%N; [|reflexivity]. exists 0. split; [f_equal; lia|]. split; [lia|].
    intros new En. cbn [upd map]. now rewrite En.
Qed.
Lemma press_cache m k code d dl : S_ m k -> code <> 0%N -> holding code m = None -> settled_action c (vw code d) ->
  if Nat.ltb (length (m_held m)) 16 then
    exists ca, cache_set k code (Some (mkCe 0 d dl 0)) = Some (set_k_cache ca k)
      /\ sim (count m) code (with_held ((code, (vw code d, dl)) :: m_held m) (seated code m)) (set_k_cache ca k)
  else cache_set k code (Some (mkCe 0 d dl 0)) = None.
Proof.
  intros H Hc Hh P. pose proof (proj2 (unheld_holding m k code H Hc) Hh) as Un. destruct H as [A R].
  pose proof (r_used _ _ _ _ _ _ _ _ _ _ _ _ _ _ _ _ _ _ R) as U. pose proof (r_size _ _ _ _ _ _ _ _ _ _ _ _ _ _ _ _ _ _ R) as Sz.
  pose proof (Permutation_length U) as PL.
  destruct (Nat.ltb_spec (length (m_held m)) 16) as [L|L].
  - assert (Ro : existsb (N.eqb 0) (map ce_code (k_cache k)) = true).
    { destruct (used_full (k_cache k)) as (e & I & Ez); [lia|]. apply existsb_exists. exists 0%N. split; [|reflexivity]. apply in_map_iff. exists e. auto. }
    pose proof (slot_sit code (k_cache k) 0 None Un) as SS. rewrite Ro in SS. destruct SS as (i & Es & Hi & Si). cbn [Nat.add] in Es.
    assert (Zi : ce_code (nth i (k_cache k) zero_ce) = 0%N).
    { destruct (cache_slot_free code (k_cache k) 0 None i Un Es) as [E|[_ Zi]]; [discriminate|]. now rewrite Nat.sub_0_r in Zi. }
    unfold cache_set. rewrite Es. cbn [ce_d ce_dl ce_layer].
    eexists. split; [reflexivity|]. split; [exact A|].
    assert (Ts : take_seat code (m_seats m) = sit code (m_seats m)).
    { unfold take_seat. destruct (existsb (N.eqb code) (m_seats m)) eqn:Ex; [|reflexivity]. exfalso. apply existsb_exists in Ex as (y & Iy & Ey). apply N.eqb_eq in Ey. subst y.
      rewrite <- (r_seats _ _ _ _ _ _ _ _ _ _ _ _ _ _ _ _ _ _ R) in Iy. apply in_map_iff in Iy as (e & Ee & Ie). now apply (Un e). }
    destruct (upd_split (mkCe code d dl 0) (k_cache k) i zero_ce Hi) as (l1 & l2 & E1 & E2 & _).
    unfold seated. rewrite Ts. apply (rest_cache _ 0%N); [exact R| | | | | |].
    + rewrite (Si (mkCe code d dl 0) eq_refl). now rewrite (r_seats _ _ _ _ _ _ _ _ _ _ _ _ _ _ _ _ _ _ R).
    + intros Sw e I Hz. rewrite E2 in I. apply in_app_iff in I.
      assert (Ol : In e (k_cache k) -> ce_layer e = if (ce_code e =? code)%N then 0 else mark (vw (ce_code e) (ce_d e))).
      { intros Io. rewrite (r_marks _ _ _ _ _ _ _ _ _ _ _ _ _ _ _ _ _ _ R Sw e Io Hz). destruct (N.eqb_spec (ce_code e) 0); [contradiction|].
        destruct (N.eqb_spec (ce_code e) code); [now elim (Un e Io)|reflexivity]. }
      destruct I as [I|[<-|I]]; [apply Ol; rewrite E1; apply in_app_iff; now left|cbn [ce_code ce_layer]; now rewrite N.eqb_refl|].
      apply Ol. rewrite E1. apply in_app_iff. right. now right.
    + rewrite E2, used_app. rewrite E1, used_app in U. unfold used at 2 in U. cbn [filter map] in U. rewrite Zi in U. cbn [N.eqb negb] in U. fold (used l2) in U.
      unfold used at 2. cbn [filter map ce_code]. destruct (N.eqb_spec code 0); [contradiction|]. cbn [negb map ce_code ce_d ce_dl]. fold (used l2).
      apply Permutation_sym, Permutation_cons_app, Permutation_sym. exact U.
    + cbn [map fst]. constructor; [|apply (r_nodup _ _ _ _ _ _ _ _ _ _ _ _ _ _ _ _ _ _ R)]. intros I. apply in_map_iff in I as (h & Eh & Ih).
      unfold holding in Hh. destruct (find _ _) as [h'|] eqn:F; [discriminate|]. apply (find_none _ _ F) in Ih. cbv beta in Ih. rewrite Eh, N.eqb_refl in Ih. discriminate.
    + now rewrite upd_length.
    + intros h [<-|Ih]; [exact P|now apply (r_held _ _ _ _ _ _ _ _ _ _ _ _ _ _ _ _ _ _ R)].
  - unfold cache_set. destruct (cache_slot (k_cache k) code 0 None) as [j|] eqn:E; [|reflexivity]. exfalso.
    apply cache_slot_free in E as [E|[Hj Zj]]; [discriminate| |exact Un].
    assert (Full : length (filter (fun e => negb (ce_code e =? 0)%N) (k_cache k)) = length (k_cache k)).
    { unfold used in PL. rewrite map_length in PL. pose proof (filter_le (fun e => negb (ce_code e =? 0)%N) (k_cache k)). lia. }
    rewrite Nat.sub_0_r in Zj. assert (In (nth j (k_cache k) zero_ce) (k_cache k)) as I by (apply nth_In; lia).
    revert Full I Zj. generalize (nth j (k_cache k) zero_ce). generalize (k_cache k). clear. intros l x.
    induction l as [|e l IH]; cbn [filter length In]; intros F I Z0; [destruct I|].
    pose proof (filter_le (fun e => negb (ce_code e =? 0)%N) l). destruct I as [->|I].
    + rewrite Z0 in F. cbn [N.eqb negb] in F. lia.
    + destruct (negb (ce_code e =? 0)%N); cbn [length] in F; [apply IH; auto; lia|lia].
Qed.
Lemma filter_other code (l : list (N * (desc * nat))) : ~ In code (map fst l) -> filter (fun h => negb (fst h =? code)%N) l = l.
Proof.
  induction l as [|h l IH]; cbn [map filter In]; intros H; [reflexivity|]. destruct (N.eqb_spec (fst h) code); [elim H; now left|].
  cbn [negb]. f_equal. apply IH. tauto.
Qed.
Lemma release_cache m k code d dl (Y := filter (fun h => negb (fst h =? code)%N) (m_held m)) : S_ m k -> code <> 0%N -> holding code m = Some (d, dl) ->
  exists i ca, cache_get k code = Some i /\ vw code (ce_d (cache_nth k i)) = d /\ ce_dl (cache_nth k i) = dl
    /\ cache_set k code None = Some (set_k_cache ca k) /\ sim (count m) 0%N (leave code m) (set_k_cache ca k)
    /\ (forall j, count m j = count (leave code m) j + b2 (kept_by j (code, (d, dl)))) /\ settled_action c d.
Proof.
  intros [A R] Hc Hh. pose proof (r_used _ _ _ _ _ _ _ _ _ _ _ _ _ _ _ _ _ _ R) as U. pose proof (r_size _ _ _ _ _ _ _ _ _ _ _ _ _ _ _ _ _ _ R) as Sz.
  pose proof (r_nodup _ _ _ _ _ _ _ _ _ _ _ _ _ _ _ _ _ _ R) as Nd.
  unfold holding in Hh. destruct (find (fun h => (fst h =? code)%N) (m_held m)) as [[code' dd]|] eqn:F; [|discriminate].
  cbn [option_map snd] in Hh. injection Hh as ->. apply find_some in F as [F1 F2]. cbn [fst] in F2. apply N.eqb_eq in F2. subst code'.
  destruct (cache_get k code) as [i|] eqn:G.
  2:{ exfalso. apply (Permutation_in _ (Permutation_sym U)) in F1. apply used_In in F1 as (e & E1 & E2 & E3). injection E3 as E3 _ _.
      clear - G E1 E3. revert G E1. unfold cache_get. generalize 0. induction (k_cache k) as [|x l IH]; cbn [cache_find In]; intros n G E1; [destruct E1|].
      destruct (N.eqb_spec (ce_code x) code); [discriminate|]. destruct E1 as [->|E1]; [congruence|]. now apply (IH (S n)). }
  pose proof G as G0. unfold cache_get in G. pose proof (cache_slot_find code (k_cache k) 0 None i G) as Sl.
  apply cache_find_split in G as (l1 & e & l2 & E1 & N1 & Ee & Ei). cbn [Nat.add] in Ei.
  assert (Ni : cache_nth k i = e). { unfold cache_nth. rewrite E1, Ei, app_nth2 by lia. now rewrite Nat.sub_diag. }
  assert (Hi : i < length (k_cache k)). { rewrite E1, app_length. cbn [length]. lia. }
  assert (Cs : cache_set k code None = Some (set_k_cache (upd i (mkCe 0 (ce_d e) (ce_dl e) (ce_layer e)) (k_cache k)) k)).
  { unfold cache_set. rewrite Sl. unfold cache_nth in Ni. now rewrite Ni. }
  assert (Us : used (k_cache k) = used l1 ++ (code, (vw code (ce_d e), ce_dl e)) :: used l2).
  { rewrite E1, used_app. f_equal. unfold used at 1. cbn [filter]. rewrite Ee. destruct (N.eqb_spec code 0); [contradiction|]. cbn [negb map]. now rewrite Ee. }
  assert (Up : upd i (mkCe 0 (ce_d e) (ce_dl e) (ce_layer e)) (k_cache k) = l1 ++ mkCe 0 (ce_d e) (ce_dl e) (ce_layer e) :: l2).
  { destruct (upd_split (mkCe 0 (ce_d e) (ce_dl e) (ce_layer e)) (k_cache k) i zero_ce Hi) as (a1 & a2 & X1 & X2 & X3).
    assert (a1 = l1 /\ a2 = l2) as [-> ->].
    { rewrite E1 in X1. apply same_split in X1; [|lia]. split; symmetry; apply X1. }
    exact X2. }
  assert (Ue : used (upd i (mkCe 0 (ce_d e) (ce_dl e) (ce_layer e)) (k_cache k)) = used l1 ++ used l2).
  { rewrite Up, used_app. f_equal. }
  assert (Per : Permutation (m_held m) ((code, (vw code (ce_d e), ce_dl e)) :: used l1 ++ used l2)).
  { rewrite <- U, Us. apply Permutation_sym, Permutation_middle. }
  assert (Nd2 : NoDup (map fst ((code, (vw code (ce_d e), ce_dl e)) :: used l1 ++ used l2))).
  { eapply Permutation_NoDup; [|exact Nd]. now apply Permutation_map. }
  cbn [map fst] in Nd2. inversion_clear Nd2 as [|? ? Nc Nr].
  assert (Ed : (vw code (ce_d e), ce_dl e) = (d, dl)).
  { apply (Permutation_in _ Per) in F1 as [F1|F1]; [congruence|]. exfalso. apply Nc. apply in_map_iff. exists (code, (d, dl)). auto. }
  injection Ed as Ed1 Ed2.
  assert (PY : Permutation Y (used l1 ++ used l2)).
  { unfold Y. assert (Pf : forall a b, Permutation a b -> Permutation (filter (fun h : N * (desc * nat) => negb (fst h =? code)%N) a) (filter (fun h => negb (fst h =? code)%N) b)).
    { clear. induction 1; cbn [filter]; repeat match goal with |- context [if ?b then _ else _] => destruct b end; auto using perm_swap; try (constructor; auto; fail).
      eapply Permutation_trans; eassumption. }
    apply Pf in Per. cbn [filter fst] in Per. rewrite N.eqb_refl in Per. cbn [negb] in Per. rewrite (filter_other code _ Nc) in Per. exact Per. }
  exists i, (upd i (mkCe 0 (ce_d e) (ce_dl e) (ce_layer e)) (k_cache k)). rewrite Ni. split; [reflexivity|]. split; [exact Ed1|]. split; [exact Ed2|].
  split; [exact Cs|]. split; [split; [exact A|]|split].
  - change (leave code m) with (with_held Y (with_seats (rise code (m_seats m)) m)). apply (rest_cache _ 0%N); [exact R| | | | | |].
    + rewrite Up, <- (r_seats _ _ _ _ _ _ _ _ _ _ _ _ _ _ _ _ _ _ R), E1. unfold rise. rewrite !map_app. cbn [map ce_code]. rewrite Ee, N.eqb_refl.
      assert (Ot : forall l, (forall e', In e' l -> ce_code e' <> code) -> map (fun x => if (x =? code)%N then 0%N else x) (map ce_code l) = map ce_code l).
      { clear. intros l. induction l as [|y l IH]; cbn [map In]; intros Hl; [reflexivity|]. rewrite IH by auto. destruct (N.eqb_spec (ce_code y) code); [elim (Hl y); auto|reflexivity]. }
      assert (Nl : forall l, ~ In code (map fst (used l)) -> forall e', In e' l -> ce_code e' <> code).
      { clear - Hc. intros l Hn e' I Ee. apply Hn. apply in_map_iff. exists (ce_code e', (vw (ce_code e') (ce_d e'), ce_dl e')). split; [exact Ee|].
        apply used_In. exists e'. rewrite Ee. auto. }
      rewrite map_app, in_app_iff in Nc. rewrite !Ot; [reflexivity| |]; apply Nl; tauto.
    + intros Sw e' I Hz. rewrite Up in I. apply in_app_iff in I. apply (r_marks _ _ _ _ _ _ _ _ _ _ _ _ _ _ _ _ _ _ R Sw e'); [|exact Hz]. rewrite E1. apply in_app_iff.
      destruct I as [I|[<-|I]]; [now left|now elim Hz|right; now right].
    + rewrite Ue. now apply Permutation_sym.
    + eapply Permutation_NoDup; [|exact Nr]. now apply Permutation_map, Permutation_sym.
    + now rewrite upd_length.
    + intros h Hh. apply (r_held _ _ _ _ _ _ _ _ _ _ _ _ _ _ _ _ _ _ R). unfold Y in Hh. now apply filter_In in Hh.
  - intros j. change (count (leave code m) j) with (count (with_held Y m) j). pose proof (count_held m Y j) as Ch.
    assert (Len : forall a b, Permutation a b -> length (filter (kept_by j) a) = length (filter (kept_by j) b)).
    { clear. induction 1; cbn [filter]; repeat match goal with |- context [if ?b then _ else _] => destruct b end; cbn [length]; try lia. }
    pose proof (Len _ _ Per) as L1. pose proof (Len _ _ PY) as L2. rewrite L2 in Ch. rewrite L1 in Ch. cbn [filter] in Ch.
    rewrite Ed1, Ed2 in Ch. destruct (kept_by j (code, (d, dl))); cbn [length b2] in *; lia.
  - apply (r_held _ _ _ _ _ _ _ _ _ _ _ _ _ _ _ _ _ _ R (code, (d, dl)) F1).
Qed.

(* ---- events --------------------------------------------------------------------------- *)
Lemma end_shots_fewer m : length (m_shots (end_shots c m)) <= length (m_shots m).
Proof.
  unfold end_shots. cbn [m_shots with_shot]. generalize (flat_map (fun i => repeat i (count_occ Nat.eq_dec (m_shots m) i)) (layers c)).
  intros l. revert m. induction l as [|i l IH]; intros m; cbn [fold_left]; [lia|]. etransitivity; [apply IH|].
  rewrite shots_end_shot. induction (m_shots m) as [|x r IHr]; cbn [remove_one length]; [lia|]. destruct (Nat.eqb x i); cbn [length]; lia.
Qed.
Lemma expire_sim m k t k' : S_ m k -> expire_oneshot k t = Ok k' ->
  S_ (expire c t m) k' /\ length (m_shots (expire c t m)) <= length (m_shots m).
Proof.
  intros H E. unfold expire_oneshot in E. rewrite (r_until _ _ _ _ _ _ _ _ _ _ _ _ _ _ _ _ _ _ (proj2 H)) in E. unfold expire. destruct (_ && _).
  - bstep E k1 E1. apply Ok_inj in E. subst k'. split; [apply S_adjust; now apply (clear_oneshot_sim c pe vw m k)|]. apply end_shots_fewer.
  - apply Ok_inj in E. now subst k'.
Qed.
Lemma again_sim m k code t k' : S_ m k -> run_active_macro k code t = Ok k' ->
  S_ (again c code t m) k' /\ m_shots (again c code t m) = m_shots m /\ (code <> 0%N -> m_repeat (again c code t m) = None).
Proof.
  intros H E. pose proof (r_repeat _ _ _ _ _ _ _ _ _ _ _ _ _ _ _ _ _ _ (proj2 H)) as Rr. pose proof (r_cfg _ _ _ _ _ _ _ _ _ _ _ _ _ _ _ _ _ _ (proj2 H)) as Ec.
  unfold run_active_macro in E. unfold again. destruct (m_repeat m) as [[[[n dl] due] every]|] eqn:Mr.
  - destruct Rr as (R1 & R2 & R3 & R4). rewrite R1 in E. destruct (N.eqb_spec code 0) as [Ez|Hz]; cbn [negb] in *.
    + rewrite R3 in E. destruct (due <=? t)%Z.
      * bstep E mm Em. apply (macro_the c _ _ _ Ec) in Em. subst mm. rewrite R2 in E. cbv zeta in E.
        pose proof (S_type c pe vw m k dl (the_macro c n) H) as X.
        assert (Kr : k_repeat (execute_macro k dl (the_macro c n)) = every /\ k_amacro (execute_macro k dl (the_macro c n)) = Some n
            /\ k_amacro_layer (execute_macro k dl (the_macro c n)) = dl).
        { destruct (execute_macro_only k dl (the_macro c n)) as [? [? [? ->]]]. auto. }
        destruct Kr as (K1 & K2 & K3). rewrite K1 in E. split; [|split; [now rewrite type_with|contradiction]].
        eapply schedule_S; [|exact E]. destruct X as [A R]. split; [exact A|]. destruct R. constructor; try assumption. cbn [m_repeat with_repeat]. auto.
      * apply Ok_inj in E. subst k'. split; [exact H|]. split; [reflexivity|contradiction].
    + apply Ok_inj in E. subst k'. split; [|split; reflexivity]. apply S_adjust. destruct H as [A R]. split; [exact A|]. destruct R. constructor; try assumption. reflexivity.
  - rewrite Rr in E. apply Ok_inj in E. subst k'. auto.
Qed.
Lemma seen_S m k code p t : f_chords pe = no_chords -> S_ m k -> S_ m (chord_seen k code p t).
Proof. intros Nc [A R]. split; [exact A|]. destruct R. constructor; try assumption. rewrite Nc in *. exact r_chords. Qed.
End Ref.

Definition idv (_ : N) (d : desc) : desc := d.
Definition at_code (code : N) (a : desc) (x : N) (d : desc) : desc := if (x =? code)%N then a else d.

(* ---- reading an idle overload as what it turned out to be -------------------------------- *)
Lemma used_at code a ca : (forall e, In e ca -> ce_code e <> code) -> used (at_code code a) ca = used idv ca.
Proof.
  intros H. unfold used. apply map_ext_in. intros e He. apply filter_In in He as [He _]. unfold at_code, idv.
  destruct (N.eqb_spec (ce_code e) code); [now elim (H e He)|reflexivity].
Qed.
Lemma view_to c pe m k code a : S_ c pe idv m k -> code <> 0%N -> holding code m = None -> S_ c pe (at_code code a) m k.
Proof.
  intros H Hc Hh. pose proof (proj2 (unheld_holding c pe idv m k code H Hc) Hh) as Un. destruct H as [A R]. split; [exact A|].
  destruct R. constructor; try assumption.
  - intros Sw e He Hz. rewrite (r_marks Sw e He Hz). unfold at_code, idv. destruct (N.eqb_spec (ce_code e) code); [now elim (Un e He)|reflexivity].
  - rewrite used_at; [exact r_used|]. intros e He. now apply Un.
Qed.
Lemma used_replace code a : forall l1 e l2, ce_code e = code -> code <> 0%N -> ~ In code (map fst (used idv (l1 ++ l2))) ->
  used idv (l1 ++ mkCe (ce_code e) a (ce_dl e) (ce_layer e) :: l2) = used (at_code code a) (l1 ++ e :: l2).
Proof.
  intros l1 e l2 Ee Hc Nd. rewrite (used_app idv), (used_app (at_code code a)). rewrite used_app, map_app in Nd.
  assert (G : forall l, ~ In code (map fst (used idv l)) -> used (at_code code a) l = used idv l).
  { clear - Hc. intros l H. apply used_at. intros e He Ee. apply H. apply in_map_iff. exists (ce_code e, (ce_d e, ce_dl e)). split; [exact Ee|].
    apply used_In. exists e. rewrite Ee. auto. }
  rewrite G by (intros I; apply Nd; apply in_or_app; now left). f_equal.
  unfold used at 1 2. cbn [filter ce_code]. rewrite Ee. destruct (N.eqb_spec code 0); [contradiction|]. cbn [negb map ce_code ce_d ce_dl].
  rewrite Ee. unfold at_code at 1. rewrite N.eqb_refl. unfold idv at 1. f_equal.
  fold (used idv l2). fold (used (at_code code a) l2). symmetry. apply G. intros I. apply Nd. apply in_or_app. now right.
Qed.
Lemma view_back c pe m k code a : code <> 0%N -> S_ c pe (at_code code a) m k -> S_ c pe idv m (cache_replace_d k code a) \/ holding code m = None.
Proof.
  intros Hc H. destruct (holding code m) as [[d dl]|] eqn:Hh; [left|now right].
  destruct (release_cache c pe (at_code code a) m k code d dl H Hc Hh) as (i & _ & G & _). unfold cache_replace_d. unfold cache_get in G. rewrite G.
  apply cache_find_split in G as (l1 & e & l2 & E1 & N1 & Ee & Ei). cbn [Nat.add] in Ei. subst i.
  assert (Ne : nth (length l1) (k_cache k) zero_ce = e) by (rewrite E1, app_nth2 by lia; now rewrite Nat.sub_diag). rewrite Ne.
  assert (Up : upd (length l1) (mkCe (ce_code e) a (ce_dl e) (ce_layer e)) (k_cache k) = l1 ++ mkCe (ce_code e) a (ce_dl e) (ce_layer e) :: l2).
  { destruct (upd_split (mkCe (ce_code e) a (ce_dl e) (ce_layer e)) (k_cache k) (length l1) zero_ce) as (a1 & a2 & X1 & X2 & X3).
    { rewrite E1, app_length. cbn [length]. lia. }
    rewrite E1, (app_nth2 l1) in X1 by lia. rewrite Nat.sub_diag in X1. cbn [nth] in X1. apply same_split in X1; [|lia]. destruct X1 as [-> ->]. exact X2. }
  rewrite Up. destruct H as [A R]. split; [exact A|]. pose proof (r_used _ _ _ _ _ _ _ _ _ _ _ _ _ _ _ _ _ _ R) as U.
  pose proof (r_nodup _ _ _ _ _ _ _ _ _ _ _ _ _ _ _ _ _ _ R) as Nd. pose proof (r_size _ _ _ _ _ _ _ _ _ _ _ _ _ _ _ _ _ _ R) as Sz.
  assert (Nd2 : ~ In code (map fst (used idv (l1 ++ l2)))).
  { apply (Permutation_map fst), Permutation_sym, (fun p => Permutation_NoDup p Nd) in U. rewrite E1, used_app, map_app in U.
    unfold used at 2 in U. cbn [filter] in U. rewrite Ee in U. destruct (N.eqb_spec code 0); [contradiction|]. cbn [negb map fst] in U. rewrite Ee in U.
    apply NoDup_remove_2 in U. fold (used (at_code code a) l2) in U. intros I. apply U. rewrite used_app, map_app in I. revert I.
    assert (F : forall l, map fst (used idv l) = map fst (used (at_code code a) l)).
    { clear. intros l. unfold used. rewrite !map_map. reflexivity. }
    now rewrite !F. }
  rewrite E1 in U. rewrite <- (used_replace code a l1 e l2 Ee Hc Nd2) in U.
  assert (Nl : forall e', In e' l1 \/ In e' l2 -> ce_code e' <> code).
  { intros e' I Ec. apply Nd2. apply in_map_iff. exists (code, (ce_d e', ce_dl e')). split; [reflexivity|]. apply used_In. exists e'. rewrite in_app_iff, Ec. auto. }
  destruct R. constructor; try assumption; cbn [k_cache set_k_cache].
  - rewrite <- r_seats, E1, !map_app. reflexivity.
  - intros Sw e' I Hz. apply in_app_iff in I.
    assert (Ol : ce_code e' <> code -> In e' (k_cache k) -> ce_layer e' = if (ce_code e' =? 0)%N then 0 else mark (idv (ce_code e') (ce_d e'))).
    { intros Nc Io. rewrite (r_marks Sw e' Io Hz). unfold at_code, idv. now destruct (N.eqb_spec (ce_code e') code). }
    destruct I as [I|[<-|I]].
    + apply Ol; [apply Nl; now left|]. rewrite E1. apply in_app_iff. now left.
    + cbn [ce_code ce_layer ce_d] in *. rewrite (r_marks Sw e); [|rewrite E1; apply in_app_iff; right; now left|exact Hz].
      rewrite Ee. unfold at_code. now rewrite N.eqb_refl.
    + apply Ol; [apply Nl; now right|]. rewrite E1. apply in_app_iff. right. now right.
  - rewrite E1 in Sz. rewrite app_length in *. exact Sz.
Qed.

Section Events.
Variable c : config.
Notation Si pe := (S_ c pe idv).

Lemma held_shots : forall l m, m_held (fold_left (end_shot c) l m) = m_held m.
Proof. induction l as [|i l IH]; intros m; cbn [fold_left]; [reflexivity|]. now rewrite IH. Qed.
Lemma held_end m : m_held (end_shots c m) = m_held m.
Proof. unfold end_shots. cbn [m_held with_shot]. apply held_shots. Qed.
Lemma held_locks : forall l m, m_held (fold_left (unlock c) l m) = m_held m.
Proof. induction l as [|i l IH]; intros m; cbn [fold_left]; [reflexivity|]. now rewrite IH. Qed.
Lemma held_reset m : m_held (reset c m) = m_held m.
Proof. unfold reset. cbv zeta. cbn [m_held with_host with_repeat]. now rewrite held_locks, held_end. Qed.
Lemma held_type dl mac m : m_held (type c dl mac m) = m_held m.
Proof. now rewrite type_with. Qed.
Lemma held_flip l m : m_held (flip c l m) = m_held m.
Proof. unfold flip. rewrite held_end. destruct (mem _ _); reflexivity. Qed.
Lemma held_macro n t r dl time m : m_held (start_macro c n t r dl time m) = m_held m.
Proof. change (m_held (type c dl (the_macro c n) (end_shots c m)) = m_held m). now rewrite held_type, held_end. Qed.
Lemma held_typed mods t m : m_held (typed mods t m) = m_held m.
Proof. unfold typed. destruct (_ || _); reflexivity. Qed.
Lemma held_tell i b m : m_held (tell c i b m) = m_held m. Proof. reflexivity. Qed.
Lemma held_layout v m : m_held (with_layout v m) = m_held m. Proof. reflexivity. Qed.
Lemma held_swap l dl m : map fst (m_held (swap_to c l dl m)) = map fst (m_held m).
Proof.
  unfold swap_to. cbv zeta. destruct (mem _ _); [reflexivity|]. destruct (keeper c dl m) as [x|]; [|reflexivity].
  change (map fst (m_held (rebind x (DLayer l) (rebind x DNone m))) = map fst (m_held m)). unfold rebind. cbn [m_held with_held]. now rewrite !reb_keys.
Qed.
Lemma held_press code d dl t m : map fst (m_held (press c code d dl t m)) = map fst (m_held m).
Proof.
  destruct d; cbn [press press_plain]; try exact (eq_refl (map fst (m_held m)));
    try (rewrite held_type; apply held_swap); try apply held_swap; f_equal.
  - unfold press_key. cbv zeta. rewrite held_typed, held_end. destruct (o_down _ _); reflexivity.
  - rewrite held_tell, held_layout. apply held_reset.
  - apply held_reset.
  - rewrite held_type. apply held_reset.
  - apply held_flip.
  - apply held_flip.
  - apply held_macro.
  - apply held_macro.
  - exact (held_end _).
Qed.
(* a key begins its action, remembered as [d0] *)
Lemma begin_sim pe m k ca code d0 dl t k' s :
  (forall v, (v = idv \/ exists a, v = at_code code a) -> settled_action c (v code d0) ->
     S_ c pe v (with_seats s m) k /\ sim c pe v (count m) code (with_held ((code, (v code d0, dl)) :: m_held m) (seated code m)) (set_k_cache ca k)) ->
  m_repeat m = None -> length (m_shots m) < 200 -> general_action c d0 -> code <> 0%N ->
  do_desc (set_k_cache ca k) code d0 dl true t = Ok k' ->
  Si (put_off c pe code (settle c d0 t m) dl t) (begin_key c code (settle c d0 t m) dl t m) k'.
Proof.
  intros V Hr L Gd Hc E.
  assert (Gen : forall v d fuel k1, (v = idv \/ exists a, v = at_code code a) ->
    S_ c pe v (with_seats s m) k -> sim c pe v (count m) code (with_held ((code, (d, dl)) :: m_held m) (seated code m)) (set_k_cache ca k) ->
    settled_action c d -> process_descriptor (S fuel) (set_k_cache ca k) code d dl true t = Ok k1 ->
    S_ c (put_off c pe code d dl t) v (begin_key c code d dl t m) k1).
  { intros v d fuel k1 Hv H1 H2 [P|P] E1.
    assert (Vw : forall x y, x <> code -> v x y = y).
    { intros x y Nx. destruct Hv as [-> | [a ->]]; [reflexivity|]. unfold at_code. now destruct (N.eqb_spec x code). }
    - replace (put_off c pe code d dl t) with pe by (destruct d; first [reflexivity|contradiction P]).
      exact (press_sim c pe v fuel m k ca code d dl t k1 s H1 Hr L P Vw H2 E1).
    - exact (late_press c pe v fuel m (set_k_cache ca k) code d dl t k1 (m_held m) P H2 eq_refl E1). }
  unfold do_desc, pd_fuel in E.
  assert (Nor : settled_action c d0 -> settle c d0 t m = d0 ->
    Si (put_off c pe code (settle c d0 t m) dl t) (begin_key c code (settle c d0 t m) dl t m) k').
  { intros P ->. destruct (V idv (or_introl eq_refl) P) as [V1 V2]. exact (Gen idv d0 _ k' (or_introl eq_refl) V1 V2 P E). }
  assert (Id : (exists a1 a2 w, d0 = DOverloadI a1 a2 w) \/ settle c d0 t m = d0 /\ settled_action c d0).
  { destruct d0; try (right; split; [reflexivity|exact Gd]). left. eauto. }
  destruct Id as [(a1 & a2 & w & ->)|[Id1 Id2]]; [|now apply Nor]. clear Nor. set (d := settle c (DOverloadI a1 a2 w) t m) in *.
  assert (Pd : settled_action c d) by (unfold d, settle; destruct (_ <=? _)%Z; apply Gd).
  destruct (V (at_code code d)) as [V1 V2]; [right; now exists d|unfold at_code; now rewrite N.eqb_refl|].
  unfold at_code in V2 at 2. rewrite N.eqb_refl in V2.
  assert (Ec : k_cfg (set_k_cache ca k) = c) by (exact (r_cfg _ _ _ _ _ _ _ _ _ _ _ _ _ _ _ _ _ _ (proj2 V2))).
  assert (Es : k_last_simple (set_k_cache ca k) = m_simple m) by (exact (r_simple _ _ _ _ _ _ _ _ _ _ _ _ _ _ _ _ _ _ (proj2 V2))).
  remember (length (c_descs (k_cfg (set_k_cache ca k)))) as fuel eqn:Ef. clear Ef. cbn [process_descriptor pre_macro] in E. cbn [bind] in E.
  bstep E k1 E1. apply Ok_inj in E. subst k'. bstep E1 da Ea. apply (desc_the c _ _ _ Ec) in Ea. rewrite Es in Ea.
  change (nth _ (c_descs c) DNone) with d in Ea. subst da. bstep E1 k2 E2. apply Ok_inj in E1. subst k1.
  apply (Gen (at_code code d) d fuel k2 (or_intror (ex_intro _ d eq_refl)) V1 V2 Pd) in E2. apply (view_back _ _ _ _ code d Hc) in E2 as [E2|E2].
  - apply (S_struck c _ idv _ _ code) in E2. exact E2.
  - exfalso. revert E2. unfold begin_key. clear. set (m1 := with_held _ _).
    assert (Hm : m_held m1 = (code, (d, dl)) :: m_held m) by reflexivity. clearbody m1. intros H.
    assert (G : holding code (press c code d dl t m1) = None) by exact H. clear H. revert G.
    enough (map fst (m_held (press c code d dl t m1)) = map fst (m_held m1)) as E.
    { unfold holding. rewrite Hm in E. destruct (find _ _) as [h|] eqn:F; [discriminate|]. intros _.
      assert (I : In code (map fst (m_held (press c code d dl t m1)))) by (rewrite E; now left).
      apply in_map_iff in I as (h & Eh & I). apply (find_none _ _ F) in I. cbv beta in I. rewrite Eh, N.eqb_refl in I. discriminate. }
    apply held_press.
Qed.

(* ---- keys -------------------------------------------------------------------------------- *)
(* what is put off once an event is handled *)
Definition put_off_as (pk : desc * nat) (pe : fringe) (m : machine) (code : N) (p : bool) (t : Z) : fringe :=
  match p, holding code m with
  | true, None =>
      if (code =? 0)%N then pe
      else if Nat.ltb (length (m_held m)) 16 then let '(d, dl) := pk in put_off c pe code (settle c d t m) dl t else pe
  | _, _ => pe
  end.
Definition put_off_by (pe : fringe) (m : machine) (code : N) : bool -> Z -> fringe := put_off_as (choose c m code) pe m code.
Definition on_key_as (pk : desc * nat) (m : machine) (code : N) (p : bool) (t : Z) : machine :=
  match p, holding code m with
  | true, None =>
      if Nat.ltb (length (m_held m)) 16 then let '(d, dl) := pk in begin_key c code (settle c d t m) dl t m else m
  | false, Some (d, dl) => release c code d dl t (leave code m)
  | _, _ => m
  end.
Definition on_key (m : machine) (code : N) : bool -> Z -> machine := on_key_as (choose c m code) m code.
Lemma left_holding code m : holding code (leave code m) = None.
Proof.
  unfold holding, leave, forget. cbn [m_held with_held with_seats]. destruct (find _ _) as [h|] eqn:F; [|reflexivity]. exfalso.
  apply find_some in F as [F1 F2]. apply filter_In in F1 as [_ F1]. now rewrite F2 in F1.
Qed.
Lemma key_event_sim pk pe m k code p t k' : Si pe m k -> code <> 0%N -> lookup_descriptor k code = pk -> general_action c (fst pk) ->
  m_repeat m = None -> length (m_shots m) < 200 -> handle_key k code p t = Ok k' ->
  Si (put_off_as pk pe m code p t) (on_key_as pk m code p t) k'.
Proof.
  intros H Hz Lk Pc Hr L E. unfold handle_key in E. unfold put_off_as, on_key_as. destruct (N.eqb_spec code 0); [contradiction|].
  destruct p.
  - destruct (holding code m) as [h|] eqn:Hh.
    + destruct (cache_get k code) eqn:G; [apply Ok_inj in E; now subst k'|]. exfalso.
      destruct h as [d dl]. destruct (release_cache c pe idv m k code d dl H Hz Hh) as (i & ca & X & _). congruence.
    + rewrite (cache_get_unheld k code (proj2 (unheld_holding c pe idv m k code H Hz) Hh)) in E.
      rewrite Lk in E. destruct pk as [d dl]. cbn [fst] in Pc.
      pose proof (fun v H1 H2 => press_cache c pe v m k code d dl H1 Hz Hh H2) as X.
      assert (V : forall a, S_ c pe (at_code code a) m k) by (intros a; now apply view_to).
      pose proof (X (at_code code DNone) (V DNone)) as X0. unfold at_code in X0 at 1. rewrite N.eqb_refl in X0.
      specialize (X0 (or_introl Logic.I)).
      destruct (Nat.ltb _ _).
      * destruct X0 as (ca & X1 & _). rewrite X1 in E. apply (begin_sim pe m k ca _ _ _ _ _ (m_seats m)); try assumption.
        intros v Hv Sv. assert (Sm : S_ c pe v m k) by (destruct Hv as [->|[a ->]]; [exact H|apply V]). split; [exact Sm|].
        destruct (X v Sm Sv) as (ca2 & X3 & X4). rewrite X1 in X3. injection X3 as X3.
        rewrite X3. exact X4.
      * rewrite X0 in E. apply Ok_inj in E. now subst k'.
  - destruct (holding code m) as [[d dl]|] eqn:Hh.
    + destruct (release_cache c pe idv m k code d dl H Hz Hh) as (i & ca & X1 & X2 & X3 & X4 & X5 & X6 & X7). rewrite X1, X4 in E. unfold idv in X2. rewrite X2, X3 in E.
      unfold do_desc, pd_fuel in E. destruct X7 as [X7|X7].
      * exact (release_sim c pe idv _ m _ _ code d dl t k' X5 X6 Hr L X7 (fun _ _ _ => eq_refl) (left_holding code m) E).
      * apply (late_release c _ _ _ _ _ _ _ X7) in E. subst k'.
        replace (release c code d dl t (leave code m)) with (leave code m) by (destruct d; first [reflexivity|contradiction X7]).
        apply (sim_ext c pe idv (count m)); [|exact X5]. intros j. rewrite X6. unfold kept_by. cbn [fst snd]. rewrite (late_keeps c idv d X7). cbn [b2]. apply Nat.add_0_r.
    + rewrite (cache_get_unheld k code (proj2 (unheld_holding c pe idv m k code H Hz) Hh)) in E. apply Ok_inj in E. now subst k'.
Qed.
(* all of an event that is neither part of a chord nor put off *)
Definition ready (m : machine) (e : kev) : machine := again c (ev_code e) (ev_time e) (expire c (ev_time e) m).
Lemma step_on_key_as pick m e : ev_code e <> 0%N ->
  step_by c pick m e = on_key_as (pick (ready m e) (ev_code e)) (ready m e) (ev_code e) (ev_pressed e) (ev_time e).
Proof. intros H. unfold step_by, on_key_as, ready. destruct (N.eqb_spec (ev_code e) 0); [contradiction|]. reflexivity. Qed.
Lemma step_on_key m e : ev_code e <> 0%N -> step c m e = on_key (ready m e) (ev_code e) (ev_pressed e) (ev_time e).
Proof. apply step_on_key_as. Qed.
Lemma step_sim_as pick pe m k e k1 k2 k3 : Si pe m k ->
  (ev_code e <> 0%N -> forall k, Si pe (ready m e) k -> lookup_descriptor k (ev_code e) = pick (ready m e) (ev_code e)) ->
  (ev_code e <> 0%N -> general_action c (fst (pick (ready m e) (ev_code e)))) ->
  length (m_shots m) < 200 -> expire_oneshot k (ev_time e) = Ok k1 -> run_active_macro k1 (ev_code e) (ev_time e) = Ok k2 ->
  handle_key k2 (ev_code e) (ev_pressed e) (ev_time e) = Ok k3 ->
  Si (put_off_as (pick (ready m e) (ev_code e)) pe (ready m e) (ev_code e) (ev_pressed e) (ev_time e)) (step_by c pick m e) k3.
Proof.
  intros H Lk Cm L E1 E2 E3. apply (expire_sim c pe idv m) in E1 as [H1 L1]; [|exact H].
  apply (again_sim c pe idv (expire c (ev_time e) m)) in E2 as (H2 & L2 & R2); [|exact H1]. fold (ready m e) in *.
  destruct (N.eqb_spec (ev_code e) 0) as [Ez|Hz].
  - unfold handle_key in E3. rewrite Ez in E3. cbn [N.eqb] in E3. apply Ok_inj in E3. subst k3.
    replace (step_by c pick m e) with (ready m e) by (unfold step_by, ready; rewrite Ez; reflexivity).
    unfold put_off_as. rewrite Ez. cbn [N.eqb]. destruct (ev_pressed e), (holding 0 (ready m e)); exact H2.
  - rewrite (step_on_key_as pick m e Hz). apply (key_event_sim _ pe _ k2); auto. rewrite L2. lia.
Qed.
Lemma choose_general m code : (forall i x, general_action c (ly_keymap (the c i) x)) -> general_action c (fst (choose c m code)).
Proof. intros Cm. unfold choose. destruct (widest _ _); [apply Cm|]. destruct (find _ _); [apply Cm|left; exact Logic.I]. Qed.
Lemma step_sim pe m k e k1 k2 k3 : (forall i x, general_action c (ly_keymap (the c i) x)) -> Si pe m k -> physical (ev_code e) \/ ev_code e = 0%N ->
  length (m_shots m) < 200 -> expire_oneshot k (ev_time e) = Ok k1 -> run_active_macro k1 (ev_code e) (ev_time e) = Ok k2 ->
  handle_key k2 (ev_code e) (ev_pressed e) (ev_time e) = Ok k3 ->
  Si (put_off_by pe (ready m e) (ev_code e) (ev_pressed e) (ev_time e)) (step c m e) k3.
Proof.
  intros Cm H Ph L E1 E2 E3. apply (step_sim_as (choose c) pe m k e k1 k2 k3); try assumption.
  - intros Hz k0 H0. destruct Ph as [Ph|Ph]; [|contradiction]. exact (choose_lookup c pe idv _ k0 _ H0 Ph).
  - intros _. now apply choose_general.
Qed.
Lemma chords_idle pe m k : f_chords pe = no_chords -> chordless c -> Si pe m k -> calm_chords k.
Proof.
  intros Nc Cm [_ R]. split; [rewrite (r_cfg _ _ _ _ _ _ _ _ _ _ _ _ _ _ _ _ _ _ R); apply Cm|].
  pose proof (r_chords _ _ _ _ _ _ _ _ _ _ _ _ _ _ _ _ _ _ R) as X. rewrite Nc in X. exact X.
Qed.
(* nothing put off: one event *)
Lemma idle_sim fuel pe m k e k' t : f_chords pe = no_chords -> chordless c -> (forall i x, general_action c (ly_keymap (the c i) x)) -> p_code pe = 0%N ->
  Si pe m k -> physical (ev_code e) \/ ev_code e = 0%N -> length (m_shots m) < 200 ->
  process_event fuel k (ev_code e) (ev_pressed e) (ev_time e) = Ok (k', t) ->
  Si (put_off_by pe (ready m e) (ev_code e) (ev_pressed e) (ev_time e)) (step c m e) k'.
Proof.
  intros Nc Cc Cm Hp H Ph L E. destruct fuel as [|fuel]; [discriminate|]. cbn [process_event] in E. unfold process_event_F in E.
  pose proof (chords_idle pe m k Nc Cc H) as Ca.
  rewrite handle_chord_idle in E; [|apply Ca|apply aloof_unchorded, calm_aloof, Ca]. cbn [bind] in E.
  apply (seen_S c pe idv m k (ev_code e) (ev_pressed e) (ev_time e) Nc) in H. set (k0 := chord_seen _ _ _ _) in *. clearbody k0.
  unfold handle_pending_key in E. rewrite (r_pend _ _ _ _ _ _ _ _ _ _ _ _ _ _ _ _ _ _ (proj2 H)), Hp in E. cbn [N.eqb bind] in E.
  bstep E k1 E1. bstep E k2 E2. bstep E k3 E3. apply Ok_inj in E. injection E as E _. subst k'. apply S_timeouts.
  now apply (step_sim pe m k0 e k1 k2 k3).
Qed.

(* ---- runs ------------------------------------------------------------------------------- *)
Lemma find_layout_first name : forall ls i0, find_layout ls name i0 =
  option_map (fun i => i0 + i) (find (fun i => is_layout (ly_type (nth i ls zero_layer)) && str_eqb (ly_name (nth i ls zero_layer)) name) (seq 0 (length ls))).
Proof.
  assert (Sh : forall (f : nat -> bool) n a, find f (seq (S a) n) = option_map S (find (fun i => f (S i)) (seq a n))).
  { intros f. induction n as [|n IH]; intros a; cbn [seq find]; [reflexivity|]. destruct (f (S a)); [reflexivity|]. apply IH. }
  induction ls as [|l ls IH]; intros i0; cbn [find_layout length seq find]; [reflexivity|]. cbn [nth].
  destruct (is_layout (ly_type l) && str_eqb (ly_name l) name); [cbn [option_map]; f_equal; lia|].
  rewrite IH, Sh. destruct (find _ _); cbn [option_map]; [f_equal; lia|reflexivity].
Qed.
Lemma start_sim_as (Q : chst -> list achord -> Prop) clk : Q (k_chord (new_keyboard c clk)) (k_achords (new_keyboard c clk)) -> (dawn c <= clk)%Z ->
  Si (Fringe (k_pend (new_keyboard c clk)) Q) (begin c) (new_keyboard c clk).
Proof.
  intros HQ Hk. split; [reflexivity|].
  assert (Fl : first_layout c = 0 \/ first_layout c < length (c_layers c) /\ ly_type (the c (first_layout c)) = LLayout).
  { unfold first_layout. destruct (c_default_layout c) as [|x name]; [now left|]. destruct (find _ _) as [i|] eqn:F; [|now left]. right.
    apply find_some in F as [F1 F2]. apply in_seq in F1. apply andb_true_iff in F2 as [F2 _]. split; [lia|].
    destruct (ly_type (the c i)); [discriminate|reflexivity|discriminate]. }
  assert (Ls : forall i, l_active (k_ls (new_keyboard c clk) i) = N.of_nat (count (begin c) i) /\ l_toggled (k_ls (new_keyboard c clk) i) = false
     /\ l_depth (k_ls (new_keyboard c clk) i) = 0%N /\ (0 <= l_time (k_ls (new_keyboard c clk) i) <= 1)%Z
     /\ (i = 0 \/ (l_time (k_ls (new_keyboard c clk) i) < dawn c)%Z)
     /\ (i = first_layout c -> i = 0 \/ l_time (k_ls (new_keyboard c clk) i) = 1%Z)).
  { intros i.
    assert (Cn : count (begin c) i = b2 (Nat.eqb i 0) + b2 (Nat.eqb i (first_layout c) && negb (Nat.eqb i 0))) by reflexivity. rewrite Cn.
    pose proof (dawn_range c) as Da. pose proof (fun H0 => dawn_layout c (first_layout c) H0) as Db.
    unfold new_keyboard, first_layout in *. cbn [k_ls]. destruct (c_default_layout c) as [|x name].
    - unfold nupd. destruct (Nat.eqb_spec i 0) as [E0|Hn]; cbn; repeat split; auto; lia.
    - rewrite find_layout_first in *. unfold the, layers in *. destruct (find _ _) as [j|]; cbn [option_map Nat.add] in *.
      + unfold nupd. destruct (Nat.eqb_spec i j) as [Ej|Hj]; destruct (Nat.eqb_spec i 0) as [E0|H0]; cbn; repeat split; auto; try lia; try congruence.
        right. destruct Fl as [Fl|Fl]; [congruence|]. rewrite Db; [lia|congruence|exact Fl].
      + unfold nupd. destruct (Nat.eqb_spec i 0) as [E0|H0]; cbn; repeat split; auto; lia. }
  constructor; try reflexivity; try (intros i []; fail); try (intros i; apply (Ls i)).
  - intros _ e He Hz. exfalso. apply Hz. clear - He. unfold new_keyboard in He. cbn [k_cache] in He. now apply repeat_spec in He as ->.
  - constructor.
  - intros i. cbn [m_locked begin mem existsb]. discriminate.
  - exact Fl.
  - intros i Hi Ht. change (m_layout (begin c)) with (first_layout c).
    change (count (begin c) i) with (b2 (Nat.eqb i 0) + b2 (Nat.eqb i (first_layout c) && negb (Nat.eqb i 0))).
    destruct (Nat.eqb_spec i 0); [contradiction|]. cbn [negb b2]. now rewrite andb_true_r.
  - constructor.
  - intros i _. split; apply (Ls i).
  - change (m_layout (begin c)) with (first_layout c). destruct (Ls (first_layout c)) as (_ & _ & _ & _ & _ & X). now apply X.
  - intros i Hi. right. change (count (begin c) i) with (b2 (Nat.eqb i 0) + b2 (Nat.eqb i (first_layout c) && negb (Nat.eqb i 0))) in Hi.
    change (m_layout (begin c)) with (first_layout c). destruct (Nat.eqb_spec i 0); [now right|]. destruct (Nat.eqb_spec i (first_layout c)); [now left|].
    cbn in Hi. lia.
  - exact Hk.
  - exact HQ.
Qed.
Lemma start_sim clk : (dawn c <= clk)%Z -> Si (unchorded_fringe (k_pend (new_keyboard c clk))) (begin c) (new_keyboard c clk).
Proof. apply start_sim_as. split; [reflexivity|]. intros ac [<-|[<-|[<-|[]]]]; reflexivity. Qed.
Lemma outside_sim pe m k k' : Si pe m k -> outside k k' -> Si pe m k'.
Proof.
  intros [A R] O. destruct O as [t Ht|x y].
  - split; [exact A|]. destruct R. constructor; try assumption; cbn [k_clock set_k_clock].
    + intros i Hi. destruct (r_recent i Hi) as [X Y]. split; [|exact Y]. cbn [k_ls set_k_clock]. lia.
    + lia.
  - now apply S_scroll.
Qed.
Lemma common_general : common c -> forall i x, general_action c (ly_keymap (the c i) x).
Proof. intros [_ H] i x. specialize (H i x). destruct (ly_keymap (the c i) x); cbn [common_action general_action] in *; try (left; exact H). split; left; apply H. Qed.
Lemma common_settle d t m : common_action c d -> sure_action c (settle c d t m).
Proof. intros H. destruct d; cbn [settle common_action] in *; try exact H. destruct (_ <=? _)%Z; apply H. Qed.
Lemma sure_put pe code d dl t : sure_action c d -> put_off c pe code d dl t = pe.
Proof. destruct d; cbn [put_off]; intros H; first [reflexivity|contradiction H]. Qed.
Lemma common_put pe m code p t : common c -> put_off_by pe m code p t = pe.
Proof.
  intros [_ Cm]. unfold put_off_by, put_off_as. destruct p, (holding code m); try reflexivity. destruct (code =? 0)%N; [reflexivity|].
  destruct (Nat.ltb _ _); [|reflexivity]. assert (Pc : common_action c (fst (choose c m code))).
  { unfold choose. destruct (widest _ _); [apply Cm|]. destruct (find _ _); [apply Cm|exact Logic.I]. }
  destruct (choose c m code) as [d dl]. apply sure_put, common_settle, Pc.
Qed.
Lemma calls_sim clk evs k : common c -> (dawn c <= clk)%Z -> calls_of c clk evs k ->
  (forall e, In e evs -> physical (ev_code e) \/ ev_code e = 0%N) ->
  (forall n, length (m_shots (run c (firstn n evs))) < 200) -> Si (unchorded_fringe (k_pend (new_keyboard c clk))) (run c evs) k.
Proof.
  intros Cm Hk H. induction H as [|evs k fuel e k' t H IH E|evs k k' H IH O]; intros Ph L.
  - now apply start_sim.
  - unfold run in *. rewrite fold_left_app. cbn [fold_left].
    rewrite <- (common_put (unchorded_fringe (k_pend (new_keyboard c clk))) (ready (fold_left (step c) evs (begin c)) e) (ev_code e) (ev_pressed e) (ev_time e) Cm).
    eapply idle_sim; [reflexivity|apply Cm|now apply common_general|reflexivity| |apply Ph; apply in_or_app; right; now left| |exact E].
    + apply IH; [intros x Hx; apply Ph; apply in_or_app; now left|]. intros n. specialize (L (min n (length evs))).
      rewrite firstn_app in L. replace (min n (length evs) - length evs) with 0 in L by lia. cbn [firstn] in L. rewrite app_nil_r in L.
      destruct (Nat.le_gt_cases n (length evs)); [now replace (min n (length evs)) with n in L by lia|].
      replace (min n (length evs)) with (length evs) in L by lia. rewrite firstn_all in L. now rewrite firstn_all2 by lia.
    + specialize (L (length evs)). rewrite firstn_app, Nat.sub_diag, firstn_all in L. cbn [firstn] in L. now rewrite app_nil_r in L.
  - eapply outside_sim; [|exact O]. now apply IH.
Qed.

(* ---- no oneshot keys, no oneshot layers -------------------------------------------------- *)
Definition sh (m : machine) := (m_shots m, m_held m).
Lemma sh_type dl mac m : sh (type c dl mac m) = sh m.
Proof. now rewrite type_with. Qed.
Lemma sh_end m : m_shots m = [] -> sh (end_shots c m) = sh m.
Proof.
  intros E. unfold end_shots. rewrite E. replace (flat_map _ (layers c)) with (@nil nat); [reflexivity|].
  induction (layers c) as [|i l IH]; cbn [flat_map count_occ repeat app]; [reflexivity|exact IH].
Qed.
Lemma sh_locks : forall l m, sh (fold_left (unlock c) l m) = sh m.
Proof. induction l as [|i l IH]; intros m; cbn [fold_left]; [reflexivity|]. now rewrite IH. Qed.
Lemma sh_reset m : m_shots m = [] -> sh (reset c m) = sh m.
Proof.
  intros E. unfold reset. cbv zeta. set (f := filter _ _). set (m2 := fold_left (unlock c) f (end_shots c m)).
  change (sh m2 = sh m). unfold m2. now rewrite sh_locks, sh_end.
Qed.
Lemma sh_adjust q dl mods m : sh (adjust c q dl mods m) = sh m. Proof. reflexivity. Qed.
Lemma sh_tell i b m : sh (tell c i b m) = sh m. Proof. reflexivity. Qed.
Lemma sh_layout v m : sh (with_layout v m) = sh m. Proof. reflexivity. Qed.
Lemma sh_flip l m : m_shots m = [] -> sh (flip c l m) = sh m.
Proof.
  intros E. unfold flip. rewrite sh_end; [rewrite sh_adjust; destruct (mem _ _); reflexivity|].
  change (m_shots (if mem l (m_locked m) then tell c l false (with_locked (without l (m_locked m)) m) else turn_on c l (with_locked (l :: m_locked m) m)) = []).
  destruct (mem _ _); exact E.
Qed.
Lemma sh_macro n t r dl time m : m_shots m = [] -> sh (start_macro c n t r dl time m) = sh m.
Proof. intros E. change (sh (type c dl (the_macro c n) (end_shots c m)) = sh m). now rewrite sh_type, sh_end. Qed.
Lemma sh_typed mods t m : sh (typed mods t m) = sh m.
Proof. unfold typed. destruct (_ || _); reflexivity. Qed.
Definition shotless (m : machine) : Prop := m_shots m = [] /\ forall h, In h (m_held m) -> ~ oneshot_action (fst (snd h)).
Lemma less_same m m' : sh m' = sh m -> shotless m -> shotless m'.
Proof. intros E [A B]. injection E as E1 E2. unfold shotless. now rewrite E1, E2. Qed.
Lemma less_rebind x l m : shotless m -> shotless (rebind x (DLayer l) m).
Proof.
  intros [A B]. split; [exact A|]. intros h I. unfold rebind in I. cbn [m_held with_held] in I. apply in_map_iff in I as (h0 & <- & I).
  destruct (fst h0 =? x)%N; [intros []|now apply B].
Qed.
Lemma less_swap l dl m : shotless m -> shotless (swap_to c l dl m).
Proof.
  intros H. unfold swap_to. cbv zeta. rewrite (proj1 H). cbn [mem existsb]. destruct (keeper c dl m) as [x|]; [|exact H].
  change (shotless (rebind x (DLayer l) (rebind x DNone m))). rewrite reb_twice. now apply less_rebind.
Qed.
Lemma less_plain code d dl t m : shotless m -> shotless (press_plain c code d dl t m).
Proof.
  intros H. assert (E : m_shots m = []) by apply H. destruct d; cbn [press_plain]; try exact H;
    first [now apply less_swap|(apply (less_same (swap_to c l dl m)); [apply sh_type|now apply less_swap])|refine (less_same m _ _ H)].
  - unfold press_key. cbv zeta. set (m1 := if o_down (m_host m) code0 then strike code0 false m else m).
    assert (S1 : sh m1 = sh m) by (unfold m1; destruct (o_down _ _); reflexivity).
    rewrite sh_typed, sh_end; [exact S1|]. injection S1 as S1 _. change (m_shots m1 = []). now rewrite S1.
  - rewrite sh_tell, sh_layout. now apply sh_reset.
  - now apply sh_reset.
  - rewrite sh_type. now apply sh_reset.
  - now apply sh_flip.
  - now apply sh_flip.
  - now apply sh_macro.
  - now apply sh_macro.
  - rewrite sh_adjust. rewrite sh_end; [reflexivity|exact E].
Qed.
Lemma sh_prelude d dl m : sh (prelude c d dl m) = sh m.
Proof. destruct (prelude_with c d dl m) as [h ->]. reflexivity. Qed.
Lemma less_press code d dl t m : shotless m -> shotless (press c code d dl t m).
Proof. intros H. destruct d; cbn [press]; first [exact (less_plain _ _ _ _ _ H)|exact (less_same m _ eq_refl H)]. Qed.
Lemma sh_release_plain d t m : sh (release_plain c d t m) = sh m.
Proof. destruct d; cbn [release_plain]; rewrite ?sh_typed; try reflexivity. destruct (the_macro c m0) as [|[[] ?] [|? ?]]; reflexivity. Qed.
Lemma less_flick q l m : shotless m -> shotless (flick c q l m).
Proof.
  intros H. apply (less_same m); [|exact H]. unfold flick, end_shot, turn_on, tell, adjust, sh.
  cbn [m_shots m_held with_shots with_host with_recent remove_one]. now rewrite Nat.eqb_refl.
Qed.
Lemma less_tap : forall n code d dl t m, no_oneshots c -> shotless m -> ~ oneshot_action d -> shotless (tap_as c n code d dl t m).
Proof.
  induction n as [n IH] using lt_wf_ind. intros code d dl t m Nc H N0.
  assert (G : shotless (release_plain c d t (press_plain c code d dl t (prelude c d dl m)))).
  { eapply less_same; [apply sh_release_plain|]. apply less_plain. apply (less_same m); [apply sh_prelude|exact H]. }
  assert (F : forall q l, shotless (flick c q l (prelude c d dl m))) by (intros q l; apply less_flick, (less_same m); [apply sh_prelude|exact H]).
  destruct n as [|n]; destruct d; cbn [tap_as];
    lazymatch goal with
    | |- shotless (release_plain _ _ _ _) => exact G
    | |- shotless (type _ _ _ _) => apply (less_same m); [apply sh_type|exact H]
    | |- shotless (flick _ true _ _) => apply F
    | |- shotless (with_shot _ _ _) => elim N0; exact Logic.I
    | |- _ => idtac
    end.
  - apply less_flick. exact (less_same m _ eq_refl H).
  - set (m1 := flick c false l (with_since t m)). assert (H1 : shotless m1) by (apply less_flick; exact (less_same m _ eq_refl H)). clearbody m1.
    destruct (_ <=? _)%Z; [|exact H1]. apply IH; [apply Nat.lt_succ_diag_r|exact Nc|exact H1|apply (proj2 Nc)].
Qed.
Lemma less_release code d dl t m : no_oneshots c -> shotless m -> ~ oneshot_action d -> shotless (release c code d dl t m).
Proof.
  intros Nc H N0. destruct d; cbn [release]; try (apply (less_same m); [exact (sh_release_plain _ _ m)|exact H]); try exact H; try (elim N0; exact Logic.I).
  cbv zeta. destruct (_ && _); [|exact H]. set (m1 := adjust c false None 0 (tell c l false m)). change (shotless m1) in H. clearbody m1.
  apply less_tap; [exact Nc|exact H|apply (proj2 Nc)].
Qed.
Lemma shotless_begin code d dl t m : ~ oneshot_action d -> m_shots m = [] -> (forall h, In h (m_held m) -> ~ oneshot_action (fst (snd h))) ->
  shotless (begin_key c code d dl t m).
Proof.
  intros Nd E H. unfold begin_key. set (m3 := with_held _ _).
  assert (S3 : m_shots m3 = []). { pose proof (sh_prelude d dl m) as X. injection X as X _. exact (eq_trans X E). }
  change (shotless (press c code d dl t m3)). apply less_press. split; [exact S3|]. intros h [<-|Hh]; [exact Nd|now apply H].
Qed.
Lemma shotless_settle d t m : no_oneshots c -> ~ oneshot_action d -> ~ oneshot_action (settle c d t m).
Proof. intros [_ N2] H. destruct d; cbn [settle]; try exact H. apply N2. Qed.
Lemma shotless_step_as pick m e : (forall m code, ~ oneshot_action (fst (pick m code))) -> no_oneshots c -> m_shots m = [] ->
  (forall h, In h (m_held m) -> ~ oneshot_action (fst (snd h))) ->
  m_shots (step_by c pick m e) = [] /\ forall h, In h (m_held (step_by c pick m e)) -> ~ oneshot_action (fst (snd h)).
Proof.
  intros Np Nc E Hh. unfold step_by. set (m2 := again c _ _ _).
  assert (S2 : sh m2 = sh m).
  { unfold m2, again, expire. set (m1 := if _ && _ then _ else m).
    assert (S1 : sh m1 = sh m) by (unfold m1; destruct (_ && _); [rewrite sh_adjust; now apply sh_end|reflexivity]). clearbody m1.
    destruct (m_repeat m1) as [[[[n dl] due] every]|]; [|exact S1]. destruct (negb _); [exact S1|]. destruct (_ <=? _)%Z; [|exact S1].
    rewrite <- S1. exact (sh_type dl (the_macro c n) m1). }
  clearbody m2. assert (E2 : m_shots m2 = []) by (injection S2 as S2 _; congruence).
  assert (H2 : forall h, In h (m_held m2) -> ~ oneshot_action (fst (snd h))) by (injection S2 as _ S2; now rewrite S2). clear S2 E Hh m.
  destruct (ev_code e =? 0)%N; [auto|]. destruct (ev_pressed e), (holding (ev_code e) m2) as [[d dl]|] eqn:Ho; auto.
  - destruct (Nat.ltb _ _); [|auto]. pose proof (Np m2 (ev_code e)) as Nd. destruct (pick m2 (ev_code e)) as [d dl].
    apply shotless_begin; [|exact E2|exact H2]. now apply shotless_settle.
  - set (m3 := leave _ _).
    assert (D : ~ oneshot_action d). { unfold holding in Ho. destruct (find _ _) as [h|] eqn:F; [|discriminate]. apply find_some in F as [F _].
      apply H2 in F. cbn [option_map] in Ho. injection Ho as Ho. now rewrite Ho in F. }
    apply (less_release (ev_code e) d dl (ev_time e) m3); [exact Nc| |exact D]. split; [exact E2|].
    intros h Hh. apply H2. unfold m3, leave, forget in Hh. cbn [m_held with_held with_seats] in Hh. now apply filter_In in Hh.
Qed.
Lemma choose_shotless m code : no_oneshots c -> ~ oneshot_action (fst (choose c m code)).
Proof. intros Nc. unfold choose. destruct (widest _ _); [apply Nc|]. destruct (find _ _); [apply Nc|intros []]. Qed.
Lemma shotless_step m e : no_oneshots c -> m_shots m = [] -> (forall h, In h (m_held m) -> ~ oneshot_action (fst (snd h))) ->
  m_shots (step c m e) = [] /\ forall h, In h (m_held (step c m e)) -> ~ oneshot_action (fst (snd h)).
Proof. intros Nc. apply shotless_step_as; [|exact Nc]. intros; now apply choose_shotless. Qed.
Lemma shotless_run evs : no_oneshots c -> m_shots (run c evs) = [].
Proof.
  intros Nc. enough (m_shots (run c evs) = [] /\ forall h, In h (m_held (run c evs)) -> ~ oneshot_action (fst (snd h))) by tauto.
  unfold run. induction evs as [|e evs IH] using rev_ind; [split; [reflexivity|intros h []]|].
  rewrite fold_left_app. cbn [fold_left]. now apply shotless_step.
Qed.

(* ---- batches ------------------------------------------------------------------------------ *)
Lemma keys_app a b : keys_among (a ++ b) = keys_among a ++ keys_among b.
Proof. apply filter_app. Qed.
Lemma loop_calls clk fuel : forall n pre k evs timeout ts k' t, calls_of c clk pre k ->
  pe_loop (process_event fuel) n k evs timeout ts = Ok (k', t) ->
  exists all, calls_of c clk (pre ++ all) k' /\ keys_among all = keys_among evs.
Proof.
  induction n as [|n IH]; intros pre k evs timeout ts k' t H E; destruct evs as [|e evs]; cbn [pe_loop] in E; try discriminate.
  - apply Ok_inj in E. injection E as <- _. exists []. rewrite app_nil_r. auto.
  - apply Ok_inj in E. injection E as <- _. exists []. rewrite app_nil_r. auto.
  - destruct (_ && _).
    + bstep E k1 E1. destruct k1 as [k1 t1].
      assert (H1 : calls_of c clk (pre ++ [mkKev 0 false ts]) k1) by (eapply co_call; [exact H|exact E1]).
      destruct (IH _ _ _ _ _ _ _ H1 E) as (all & A & B). exists (mkKev 0 false ts :: all). rewrite <- app_assoc in A. auto.
    + bstep E k1 E1. destruct k1 as [k1 t1].
      assert (H1 : calls_of c clk (pre ++ [e]) k1) by (eapply co_call; [exact H|exact E1]).
      destruct (IH _ _ _ _ _ _ _ H1 E) as (all & A & B). exists (e :: all). rewrite <- app_assoc in A. split; [exact A|].
      change (e :: all) with ([e] ++ all). change (e :: evs) with ([e] ++ evs). now rewrite !keys_app, B.
Qed.
Lemma batches_calls clk evs k : batches_of c clk evs k -> exists all, calls_of c clk all k /\ keys_among all = keys_among evs.
Proof.
  intros H. induction H as [|evs k fuel b k' t H (all & A & B) E|evs k k' H (all & A & B) O].
  - exists []. split; [constructor|reflexivity].
  - destruct (loop_calls clk fuel _ _ _ _ _ _ _ _ A E) as (more & C & D). exists (all ++ more). split; [exact C|]. now rewrite !keys_app, B, D.
  - exists all. split; [eapply co_outside; eassumption|exact B].
Qed.
End Events.
