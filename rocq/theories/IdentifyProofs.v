(* What a node is taken for and how its id is written: the proofs behind C65. *)
From Coq Require Import String ZArith Lia ZifyN ZifyNat ZifyBool Znumtheory Zpow_facts.
From Verif Require Import Base Lib Types Str Match Device Uinput Daemon Identify SpecDaemon SpecIdentify.
Local Open Scope list_scope.
Local Open Scope N_scope.
Local Notation length := List.length.

(* ---- numerals --------------------------------------------------------------------------- *)
Lemma hex_digit_ok d : d < 16 -> digit_value (hex_digit d) d.
Proof. unfold hex_digit, digit_value. intros H. destruct (N.ltb_spec d 10); [left|right]; lia. Qed.
Lemma hex_length w : forall v, length (hex w v) = w.
Proof. induction w as [|w IH]; intros v; [reflexivity|]. cbn [hex]. rewrite app_length, IH. cbn [length]. lia. Qed.
Lemma hex_numeral w : forall v, v < 16 ^ N.of_nat w -> numeral (hex w v) v.
Proof.
  induction w as [|w IH]; intros v H.
  - cbn in H. replace v with 0 by lia. constructor.
  - cbn [hex]. assert (v mod 16 < 16) by (apply N.mod_lt; lia).
    assert (E : v = 16 * (v / 16) + v mod 16) by (apply N.div_mod; lia).
    rewrite E at 3. constructor.
    + apply IH. apply N.div_lt_upper_bound; [lia|]. rewrite Nnat.Nat2N.inj_succ, N.pow_succ_r' in H. exact H.
    + now apply hex_digit_ok.
Qed.
Lemma hex_field w v : v < 16 ^ N.of_nat w -> field w v (hex w v).
Proof. intros H. split; [now apply hex_numeral|apply hex_length]. Qed.
Lemma digit_inj c c' d : digit_value c d -> digit_value c' d -> c = c'.
Proof. unfold digit_value. lia. Qed.
Lemma digit_same c d d' : digit_value c d -> digit_value c d' -> d = d'.
Proof. unfold digit_value. lia. Qed.
Lemma digit_small c d : digit_value c d -> d < 16.
Proof. unfold digit_value. lia. Qed.
Lemma numeral_same s v : numeral s v -> forall v', numeral s v' -> v = v'.
Proof.
  induction 1 as [|s v c d H IH Hd]; intros v' H'.
  - inversion H' as [|s' v2 c' d' H2 Hd2 E]; [reflexivity|]. now destruct s'.
  - inversion H' as [E|s' v2 c' d' H2 Hd2 E]; [now destruct s|]. apply app_inj_tail in E as [<- <-].
    rewrite (IH _ H2), (digit_same _ _ _ Hd Hd2). reflexivity.
Qed.
Lemma numeral_inj s v : numeral s v -> forall s', numeral s' v -> length s = length s' -> s = s'.
Proof.
  induction 1 as [|s v c d H IH Hd]; intros s' H' L.
  - now destruct s'.
  - remember (16 * v + d) as w eqn:Ew. destruct H' as [|s2 v2 c' d' H2 Hd2].
    + destruct s; discriminate L.
    + pose proof (digit_small _ _ Hd). pose proof (digit_small _ _ Hd2).
      assert (v2 = v) by lia. assert (d' = d) by lia. subst. rewrite !app_length in L. cbn [length] in L.
      rewrite (IH s2 H2) by lia. now rewrite (digit_inj _ _ _ Hd Hd2).
Qed.
Lemma field_same w v v' s : field w v s -> field w v' s -> v = v'.
Proof. intros [H _] [H' _]. eapply numeral_same; eauto. Qed.
Lemma field_inj w v s s' : field w v s -> field w v s' -> s = s'.
Proof. intros [H L] [H' L']. eapply numeral_inj; eauto. congruence. Qed.
Definition hexc (c : N) : Prop := 48 <= c <= 57 \/ 97 <= c <= 102.
Lemma numeral_chars s v : numeral s v -> Forall hexc s.
Proof. induction 1 as [|s v c d H IH Hd]; [constructor|]. apply Forall_app. split; [exact IH|]. constructor; [|constructor]. unfold digit_value, hexc in *. lia. Qed.

(* ---- the hash ----------------------------------------------------------------------------- *)
Lemma weigh_app a b : weigh (a ++ b) = (weigh a * 33 ^ Z.of_nat (length b) + weigh b)%Z.
Proof.
  induction a as [|c a IH]; cbn [app weigh]; [lia|]. rewrite IH, app_length, Nat2Z.inj_add, Z.pow_add_r by lia. ring.
Qed.
Lemma uid_lt l : uid_of l < 2 ^ 32.
Proof. unfold uid_of. pose proof (Z.mod_pos_bound (5183 * 33 ^ Z.of_nat (length l) + weigh l) (2 ^ 32) ltac:(lia)). change (2 ^ 32) with (Z.to_N (2 ^ 32)). lia. Qed.
Lemma uid_snoc l c h v : uid_of l = h -> (Z.of_N v mod 2 ^ 32 = c mod 2 ^ 32)%Z -> uid_of (l ++ [c]) = u32 (h * 33 + v).
Proof.
  intros <- Hv. unfold uid_of, u32. rewrite weigh_app, app_length. cbn [length weigh]. rewrite Nat2Z.inj_add, Z.pow_add_r by lia.
  change (Z.of_nat 1) with 1%Z. change (Z.of_nat 0) with 0%Z. rewrite Z.pow_1_r, Z.pow_0_r.
  set (X := (5183 * 33 ^ Z.of_nat (length l) + weigh l)%Z).
  replace (5183 * (33 ^ Z.of_nat (length l) * 33) + (weigh l * 33 + (c * 1 + 0)))%Z with (X * 33 + c)%Z by (unfold X; ring).
  apply N2Z.inj. rewrite N2Z.inj_mod, N2Z.inj_add, N2Z.inj_mul, !Z2N.id; try (apply Z.mod_pos_bound; lia).
  change (Z.of_N 0x100000000) with (2 ^ 32)%Z. change (Z.of_N 33) with 33%Z.
  rewrite Zplus_mod, <- Hv, <- Zplus_mod. rewrite Zplus_mod, Zmult_mod. rewrite (Zplus_mod (_ mod _ * 33)), (Zmult_mod (_ mod _)), Zmod_mod. reflexivity.
Qed.
Lemma widen_signed c : c < 256 -> (Z.of_N (widen c) mod 2 ^ 32 = signed c mod 2 ^ 32)%Z.
Proof.
  intros H. unfold widen, signed. destruct (c <? 128); [reflexivity|].
  replace (Z.of_N (c + (0x100000000 - 256))) with (Z.of_N c - 256 + 1 * 2 ^ 32)%Z by lia. now rewrite Z_mod_plus_full.
Qed.
Lemma fold_uid name : Forall (fun c => c < 256) name -> forall l h, uid_of l = h ->
  fold_left (fun hash c => u32 (hash * 33 + c)) (map widen name) h = uid_of (l ++ map signed name).
Proof.
  induction name as [|c name IH]; intros F l h H; cbn [map fold_left]; [now rewrite app_nil_r|].
  rewrite (IH (Forall_inv_tail F) (l ++ [signed c])); [now rewrite <- app_assoc|].
  apply uid_snoc; [exact H|]. apply widen_signed, (Forall_inv F).
Qed.
Lemma keys_le keys : (keys_number keys <= 288)%nat.
Proof. unfold keys_number. rewrite <- (seq_length 288 0) at 2. rewrite <- (map_length N.of_nat). generalize (map N.of_nat (seq 0 288)) as l. induction l as [|a l IH]; cbn [filter length]; [lia|]. destruct (keys a); cbn [length]; lia. Qed.
Lemma uid_ok k abs rel name : (k <= 288)%nat -> Forall (fun c => c < 256) name ->
  generate_uid (N.of_nat k) abs rel name
  = uid_of ([0; 0; Z.of_nat k / 256; Z.of_nat k mod 256; Z.of_N abs; Z.of_N rel]%Z ++ map signed name).
Proof.
  intros K F. unfold generate_uid. apply fold_uid; [exact F|].
  change ([0; 0; Z.of_nat k / 256; Z.of_nat k mod 256; Z.of_N abs; Z.of_N rel]%Z)
    with (((((([] ++ [0]) ++ [0]) ++ [Z.of_nat k / 256]) ++ [Z.of_nat k mod 256]) ++ [Z.of_N abs]) ++ [Z.of_N rel])%Z.
  rewrite !N.shiftr_div_pow2.
  repeat (eapply uid_snoc; [|]); try reflexivity.
  - f_equal. rewrite N.div_small; [reflexivity|]. change (2 ^ 24) with 16777216. lia.
  - f_equal. rewrite N.div_small; [reflexivity|]. change (2 ^ 16) with 65536. lia.
  - f_equal. rewrite N.mod_small.
    + rewrite N2Z.inj_div, nat_N_Z. reflexivity.
    + apply N.div_lt_upper_bound; change (2 ^ 8) with 256; lia.
  - f_equal. rewrite N2Z.inj_mod, nat_N_Z. reflexivity.
Qed.
(* 33 is invertible modulo 2^32 *)
Lemma pow33 n : rel_prime (33 ^ Z.of_nat n) (2 ^ 32).
Proof. apply rel_prime_Zpower_r; [lia|]. apply rel_prime_sym, rel_prime_Zpower_r; [lia|]. apply rel_prime_sym. apply Zgcd_1_rel_prime. reflexivity. Qed.
Lemma uid_differs a x y b : x <> y -> (Z.abs (x - y) < 2 ^ 32)%Z -> uid_of (a ++ [x] ++ b) <> uid_of (a ++ [y] ++ b).
Proof.
  intros N B H. unfold uid_of in H. rewrite !weigh_app, !app_length in H. cbn [length weigh] in H.
  apply Z2N.inj in H; try (apply Z.mod_pos_bound; lia).
  match type of H with (?u mod _ = ?v mod _)%Z => assert (D : ((u - v) mod 2 ^ 32 = 0)%Z) by (rewrite Zminus_mod, H, Z.sub_diag; reflexivity) end.
  match type of D with (?u mod _ = 0)%Z => replace u with (33 ^ Z.of_nat (length b) * (x - y))%Z in D end.
  2:{ cbn [app length]. change (Z.of_nat 0) with 0%Z. ring. }
  apply Zmod_divide in D; [|lia]. apply Gauss in D; [|apply rel_prime_sym, pow33].
  apply Z.divide_abs_r in D. apply Z.divide_pos_le in D; lia.
Qed.

(* ---- what a node is ------------------------------------------------------------------------ *)
Lemma range_seq : range 0 287 = map N.of_nat (seq 0 288).
Proof. reflexivity. Qed.
Lemma keys_eq keys : length (filter keys (range 0 287)) = keys_number keys.
Proof. unfold keys_number. now rewrite range_seq. Qed.
Lemma stored_told n name : stored_name name (nd_path n) = told_name n name.
Proof. reflexivity. Qed.
Lemma reports_keys n keys c : nd_keys n = Some keys -> (reports n c <-> keys c = true).
Proof. intros E. unfold reports. rewrite E. split; [intros (k & [= <-] & H); exact H|eauto]. Qed.
Lemma keyboard_bit n keys : nd_keys n = Some keys ->
  (keyboard_like n <-> forallb keys mask_keys || keys BRIGHTNESSUP || keys VOLUMEUP = true).
Proof.
  intros E. unfold keyboard_like. rewrite !Bool.orb_true_iff, forallb_forall, !(reports_keys n keys _ E).
  split.
  - intros [H|[H|H]]; auto. left. left. intros x Hx. apply (reports_keys n keys x E). now apply H.
  - intros [[H|H]|H]; auto. left. intros x Hx. apply (reports_keys n keys x E). now apply H.
Qed.
Lemma abs_bit n a : nd_abs n = Some a -> (absolute n <-> negb (a =? 0) = true).
Proof. intros E. unfold absolute. rewrite E, Bool.negb_true_iff, N.eqb_neq. split; [intros (x & [= <-] & H); exact H|eauto]. Qed.
Lemma pointer_bit n r a : nd_rel n = Some r -> nd_abs n = Some a -> (pointer_like n <-> negb (r =? 0) || negb (a =? 0) = true).
Proof.
  intros E1 E2. unfold pointer_like. rewrite (abs_bit n a E2), E1, Bool.orb_true_iff, !Bool.negb_true_iff, !N.eqb_neq.
  split; [intros [H|(x & [= <-] & H)]; auto|intros [H|H]; eauto].
Qed.
(* the device as a function of the answers *)
Lemma taken_shape n dv : device_init n = Taken dv -> exists keys rel abs name v p ax,
  nd_open n = true /\ nd_keys n = Some keys /\ nd_rel n = Some rel /\ nd_abs n = Some abs /\ nd_name n = Some name /\ nd_id n = Some (v, p) /\
  let m := negb (rel =? 0) || negb (abs =? 0) in
  let a := negb (abs =? 0) in
  let k := forallb keys mask_keys || keys BRIGHTNESSUP || keys VOLUMEUP in
  (a = true -> nd_x n <> None /\ nd_y n <> None) /\ m || k = true /\
  dv = mkDev true false (N.lor (N.lor (if m then 1 else 0) (if a then 2 else 0)) (if k then 4 else 0)) (v =? 0x0FAC)
         (hex 4 v ++ [58] ++ hex 4 p ++ [58] ++ hex 8 (generate_uid (N.of_nat (keys_number keys)) abs rel (told_name n name))) ax None.
Proof.
  unfold device_init. destruct (nd_open n); [|discriminate]. cbn [negb].
  unfold resolve_device_capabilities.
  destruct (nd_name n) as [name|]; [|discriminate].
  destruct (nd_keys n) as [keys|]; [|destruct (_ =? 0); [discriminate|destruct (nd_x n), (nd_y n); discriminate]].
  destruct (nd_rel n) as [rel|]; [|destruct (_ =? 0); [discriminate|destruct (nd_x n), (nd_y n); discriminate]].
  destruct (nd_abs n) as [abs|]; [|destruct (_ =? 0); [discriminate|destruct (nd_x n), (nd_y n); discriminate]].
  set (k := forallb keys mask_keys || keys BRIGHTNESSUP || keys VOLUMEUP). set (a := negb (abs =? 0)).
  set (m := negb (rel =? 0) || a). cbv zeta. intros H.
  destruct (nd_id n) as [[v p]|].
  2:{ exfalso. revert H. clearbody m. clearbody a. clearbody k. clear. intros H. destruct m, a, k; cbn in H; try discriminate H; destruct (nd_x n), (nd_y n); discriminate H. }
  rewrite keys_eq, stored_told in H.
  remember (hex 4 v ++ [58] ++ hex 4 p ++ [58] ++ hex 8 (generate_uid (N.of_nat (keys_number keys)) abs rel (told_name n name))) as idt eqn:Ei.
  assert (X : (a = true -> nd_x n <> None /\ nd_y n <> None)).
  { intros A. rewrite A in H. revert H. clearbody m k. clear. intros H. destruct m, k; cbn in H; destruct (nd_x n), (nd_y n); try discriminate H; split; discriminate. }
  assert (Y : m || k = true).
  { clear X. subst m. destruct a; [now rewrite Bool.orb_true_r|]. destruct (negb (rel =? 0)); [reflexivity|]. destruct k; [reflexivity|]. discriminate H. }
  assert (Z : exists ax, dv = mkDev true false (N.lor (N.lor (if m then 1 else 0) (if a then 2 else 0)) (if k then 4 else 0)) (v =? 0x0FAC) idt ax None).
  { clear X. clearbody m. clearbody a k. destruct m, a, k; try discriminate Y; cbn in H;
      first [injection H as <-; eexists; reflexivity
            |destruct (nd_x n) as [x|], (nd_y n) as [y|]; try discriminate H; injection H as <-; eexists; reflexivity]. }
  destruct Z as [ax Z]. exists keys, rel, abs, name, v, p, ax. do 6 (split; [reflexivity|]). cbv zeta. fold a m k. rewrite <- Ei.
  split; [exact X|]. split; [exact Y|exact Z].
Qed.

Lemma traits_unique n l l' : traits n l -> traits n l' -> l = l'.
Proof. destruct 1, 1. congruence. Qed.
Lemma signed_small c : c < 256 -> (-128 <= signed c < 256)%Z.
Proof. unfold signed. destruct (N.ltb_spec c 128); lia. Qed.
Lemma traits_small n l : in_range n -> traits n l -> Forall (fun z => (-128 <= z < 256)%Z) l.
Proof.
  intros (R1 & R2 & R3 & R4 & _) [keys rel abs name Ek Er Ea En]. specialize (R1 _ Er). specialize (R2 _ Ea). specialize (R3 _ En).
  assert (K := keys_le keys). apply Forall_app. split.
  - assert (0 <= Z.of_nat (keys_number keys) / 256 < 256)%Z by (split; [apply Z.div_pos|apply Z.div_lt_upper_bound]; lia).
    assert (0 <= Z.of_nat (keys_number keys) mod 256 < 256)%Z by (apply Z.mod_pos_bound; lia).
    repeat (constructor; [lia|]). constructor.
  - apply Forall_map.
    assert (Q : forall s, Forall (fun c => 1 <= c < 256) s -> Forall (fun c => (-128 <= signed c < 256)%Z) s).
    { intros s. apply Forall_impl. intros c Hc. apply signed_small. lia. }
    unfold told_name. destruct (Nat.ltb _ _); [now apply Q|]. apply Forall_app. split; apply Q.
    + rewrite <- (firstn_skipn 64 name) in R3. now apply Forall_app in R3.
    + rewrite <- (firstn_skipn 255 (nd_path n)) in R4. now apply Forall_app in R4.
Qed.

Lemma app_same {A} : forall a a' b b' : list A, length a = length a' -> a ++ b = a' ++ b' -> a = a' /\ b = b'.
Proof.
  induction a as [|x a IH]; intros [|y a'] b b' L E; try discriminate L; [auto|]. injection L as L. injection E as -> E.
  destruct (IH a' b b' L E) as [-> ->]. auto.
Qed.
