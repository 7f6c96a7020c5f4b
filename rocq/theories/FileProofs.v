(* Reading configuration files (C53). *)
From Coq Require Import String.
From Verif Require Import Base Lib Types Str Config ReadFile SpecFile.
From Coq Require Import List.
Import ListNotations.
Local Open Scope N_scope.
Local Open Scope list_scope.
Local Notation length := List.length.
Local Opaque MAX_FILE_SZ PATH_MAX DATA_DIR MAX_LINE_LEN.

Lemma zstr_stop l r : ~ In 0 l -> zstr (l ++ 0 :: r) = l.
Proof.
  induction l as [|x l IH]; intros H; cbn [zstr app]; [now rewrite N.eqb_refl|].
  destruct (N.eqb_spec x 0) as [->|Hx]; [elim H; now left|]. rewrite IH; auto. intros X. apply H. now right.
Qed.
Lemma zstr_id l : ~ In 0 l -> zstr l = l.
Proof.
  induction l as [|x l IH]; intros H; cbn [zstr]; auto.
  destruct (N.eqb_spec x 0) as [->|Hx]; [elim H; now left|]. rewrite IH; auto. intros X. apply H. now right.
Qed.
Lemma takeN_all n l : sizeN l <= n -> takeN n l = l.
Proof.
  revert n. induction l as [|x l IH]; intros n H; cbn [takeN]; auto. unfold sizeN in *. cbn [length] in H.
  destruct (N.eqb_spec n 0) as [->|Hn]; [lia|]. f_equal. apply IH. lia.
Qed.
Lemma prefix_app p s : has_prefix p (p ++ s) = true.
Proof. induction p as [|x p IH]; cbn [has_prefix app]; auto. now rewrite N.eqb_refl. Qed.
Lemma prefix_inv p : forall s, has_prefix p s = true -> exists r, s = p ++ r.
Proof.
  induction p as [|x p IH]; intros s H; [now exists s|]. destruct s as [|y s]; cbn [has_prefix] in H; [discriminate|].
  apply andb_true_iff in H as [H1 H2]. apply N.eqb_eq in H1. subst y. destruct (IH s H2) as [r ->]. now exists r.
Qed.
(* a prefix without newline lies before the newline *)
Lemma prefix_before p : ~ In 10 p -> forall l r, has_prefix p (l ++ 10 :: r) = has_prefix p l.
Proof.
  induction p as [|x p IH]; intros Hp l r; [now destruct l|]. destruct l as [|y l]; cbn [has_prefix app].
  - destruct (N.eqb_spec x 10) as [->|Hx]; auto. elim Hp. now left.
  - destruct (x =? y); auto. cbn [andb]. apply IH. intros X. apply Hp. now right.
Qed.
Lemma include_prefix l : has_prefix (bs "include ") l = true <-> include_line l.
Proof.
  split; [apply prefix_inv|]. intros [r ->]. apply prefix_app.
Qed.
Lemma include_nonl : ~ In 10 (bs "include ").
Proof. cbn. intros H. repeat (destruct H as [H|H]; [discriminate|]). exact H. Qed.

(* ---- fgets ----------------------------------------------------------------- *)
Lemma chunk_line l : forall cur room rest, ~ In 10 l -> (length l < room)%nat ->
  chunks (l ++ 10 :: rest) cur room = (rev cur ++ l ++ [10]) :: chunks rest [] MAX_LINE_LEN.
Proof.
  induction l as [|c l IH]; intros cur room rest Hn Hl; cbn [chunks app].
  - rewrite N.eqb_refl. cbn [orb]. reflexivity.
  - destruct (N.eqb_spec c 10) as [->|Hc]; [elim Hn; now left|]. cbn [length] in Hl.
    replace (Nat.leb room 1) with false by (symmetry; apply Nat.leb_gt; lia). cbn [orb].
    rewrite IH; [|intros X; apply Hn; now right|lia]. cbn [rev]. now rewrite <- !app_assoc.
Qed.
Lemma chunks_lines ls rest : Forall a_line ls ->
  chunks (file_of ls ++ rest) [] MAX_LINE_LEN = map (fun l => l ++ [10]) ls ++ chunks rest [] MAX_LINE_LEN.
Proof.
  induction ls as [|l ls IH]; intros H; cbn [map app]; auto. inversion H as [|? ? [H1 H2] H3]; subst.
  unfold file_of in *. cbn [map concat]. rewrite <- !app_assoc. cbn [app].
  rewrite chunk_line; auto; [now rewrite IH|]. intros X. now apply H1 in X as [X _].
Qed.

(* ---- one line ----------------------------------------------------------------- *)
Lemma line_zero l : a_line l -> ~ In 0 (l ++ [10]).
Proof. intros [H _] X. apply in_app_iff in X as [X|[X|[]]]; [now apply H in X as [_ X]|discriminate]. Qed.
Definition line_name (l : str) : str := drop_while (fun c => c =? 32) (skipn 8 l).
Lemma read_line fs path l line buf : a_line l ->
  read_chunk fs path (l ++ [10]) line buf =
    if MAX_FILE_SZ <? N.of_nat (S (length l)) + sizeN buf then Ok None
    else if has_prefix (bs "include ") l then
      Ok (Some (l ++ 0 :: 0 :: skipn (S (S (length l))) line, buf ++ included fs path (line_name l) (MAX_FILE_SZ - sizeN buf)))
    else if MAX_FILE_SZ <=? sizeN buf + N.of_nat (S (length l)) then UB
    else Ok (Some ((l ++ [10]) ++ 0 :: skipn (S (S (length l))) line, buf ++ l ++ [10])).
Proof.
  intros Hl. pose proof (line_zero l Hl) as Hz.
  assert (El : length (l ++ [10]) = S (length l)) by (rewrite app_length; cbn [length]; lia).
  unfold read_chunk. rewrite zstr_stop by auto. rewrite El. cbv zeta.
  set (tl := skipn (S (S (length l))) line). clearbody tl.
  replace (nth (length l) ((l ++ [10]) ++ 0 :: tl) 0) with 10
    by (rewrite <- app_assoc, app_nth2, Nat.sub_diag by lia; reflexivity).
  rewrite N.eqb_refl. cbn [negb andb]. destruct (MAX_FILE_SZ <? _); auto.
  replace (has_prefix (bs "include ") ((l ++ [10]) ++ 0 :: tl)) with (has_prefix (bs "include ") l)
    by (rewrite <- app_assoc; symmetry; apply (prefix_before _ include_nonl l (0 :: tl))).
  destruct (has_prefix (bs "include ") l) eqn:Ep.
  - assert (U : upd (S (length l) - 1) 0 ((l ++ [10]) ++ 0 :: tl) = l ++ 0 :: 0 :: tl).
    { rewrite <- app_assoc. cbn [app]. replace (S (length l) - 1)%nat with (length l) by lia. clear.
      induction l as [|x l IH]; cbn [length upd app]; [reflexivity|]. now rewrite IH. }
    rewrite U. repeat f_equal. unfold line_name. f_equal.
    apply prefix_inv in Ep as [r ->]. change (skipn 8 (bs "include " ++ r)) with r.
    rewrite <- app_assoc. change (skipn 8 (bs "include " ++ r ++ 0 :: 0 :: tl)) with (r ++ 0 :: 0 :: tl).
    apply zstr_stop. intros X. destruct Hl as [Hl _]. apply (Hl 0); [|reflexivity]. apply in_app_iff. now right.
  - replace (has_char 0 ((l ++ [10]) ++ 0 :: tl)) with true
      by (symmetry; apply existsb_exists; exists 0; split; [apply in_app_iff; right; now left|reflexivity]).
    cbn [negb]. rewrite zstr_stop by auto. unfold sizeN at 2. rewrite El.
    destruct (MAX_FILE_SZ <=? _); auto. repeat f_equal. rewrite <- El. rewrite firstn_app, Nat.sub_diag, firstn_all. cbn [firstn].
    apply app_nil_r.
Qed.

(* ---- where included files lie ----------------------------------------------------- *)
Lemma drop_until p s t : (forall x, In x s -> p x = true) -> drop_while p (s ++ t) = drop_while p t.
Proof.
  induction s as [|x s IH]; intros H; cbn [drop_while app]; auto. rewrite H by now left. apply IH. intros y Hy. apply H. now right.
Qed.
Lemma dirname_of dir base : ~ In 47 base -> dir <> [] -> last dir 0 <> 47 -> dirname (dir ++ 47 :: base) = dir.
Proof.
  intros Hb Hd Hl. unfold dirname.
  replace (has_char 47 (dir ++ 47 :: base)) with true
    by (symmetry; apply existsb_exists; exists 47; split; [apply in_app_iff; right; now left|reflexivity]).
  rewrite rev_app_distr. cbn [rev]. rewrite <- app_assoc. cbn [app].
  rewrite drop_until.
  2:{ intros x Hx. apply in_rev in Hx. apply negb_true_iff, N.eqb_neq. congruence. }
  cbn [drop_while]. rewrite N.eqb_refl. cbn [negb drop_while]. rewrite N.eqb_refl.
  destruct dir as [|x dir _] using rev_ind; [now elim Hd|]. rewrite rev_app_distr. cbn [rev app drop_while].
  rewrite last_last in Hl. apply N.eqb_neq in Hl. rewrite Hl.
  cbn [rev]. now rewrite rev_involutive.
Qed.
Lemma spaces n name : (forall r, name <> 32 :: r) -> drop_while (fun c => c =? 32) (repeat 32 n ++ name) = name.
Proof.
  intros H. rewrite drop_until.
  - destruct name as [|x name]; auto. cbn [drop_while]. destruct (N.eqb_spec x 32) as [->|]; auto. now elim (H name).
  - intros x Hx. apply repeat_spec in Hx. now subst.
Qed.
Lemma name_of l name : includes l name -> has_prefix (bs "include ") l = true /\ line_name l = name.
Proof.
  intros [[n ->] H]. split; [apply prefix_app|]. unfold line_name.
  change (skipn 8 (bs "include " ++ repeat 32 n ++ name)) with (repeat 32 n ++ name). now apply spaces.
Qed.
Lemma name_size l name : a_line l -> includes l name -> (length name < MAX_LINE_LEN)%nat.
Proof.
  intros [_ H] [[n ->] _]. rewrite !app_length in H. lia.
Qed.
Lemma no_dot name : ~ In 46 name <-> has_char 46 name = false.
Proof.
  split; intros H.
  - destruct (has_char 46 name) eqn:E; auto. apply existsb_exists in E as [x [H1 H2]]. apply N.eqb_eq in H2. subst. contradiction.
  - intros X. unfold has_char in H. rewrite (proj2 (existsb_exists _ _)) in H; [discriminate|]. exists 46. split; auto.
Qed.
Lemma path_fits dir name : sizeN dir + 1 + 256 < PATH_MAX -> (length name <= 256)%nat ->
  takeN (PATH_MAX - 1) (dir ++ 47 :: name) = dir ++ 47 :: name.
Proof. intros H1 H2. apply takeN_all. unfold sizeN in *. rewrite app_length. cbn [length]. lia. Qed.
Lemma data_fits name : (length name <= 256)%nat -> takeN (PATH_MAX - 1) (DATA_DIR ++ 47 :: name) = DATA_DIR ++ 47 :: name.
Proof. apply path_fits. vm_compute. reflexivity. Qed.
Lemma resolve_ok fs dir path name : file_in dir path -> (length name <= 256)%nat -> ~ In 46 name ->
  resolve_include_path fs path name = find (fun p => exists_file (fs p)) (places dir name).
Proof.
  intros [base [-> [Hb [_ [Hd [Hl Hs]]]]]] Hn Hdot. unfold resolve_include_path, places. apply no_dot in Hdot. rewrite Hdot.
  rewrite dirname_of, path_fits, data_fits by auto. cbn [find]. destruct (exists_file _); auto.
Qed.
Lemma find_first fs ps before p after : ps = before ++ p :: after -> (forall q, In q before -> missing fs q) -> fs p <> FMissing ->
  find (fun p => exists_file (fs p)) ps = Some p.
Proof.
  intros -> Hb Hp. induction before as [|q before IH]; cbn [app find].
  - destruct (fs p); [now elim Hp|reflexivity..].
  - rewrite (Hb q (or_introl eq_refl)). cbn [exists_file]. apply IH. intros r Hr. apply Hb. now right.
Qed.
Lemma piece_ok fs dir path l t room : file_in dir path -> a_line l -> piece fs dir l t -> sizeN t <= room ->
  if has_prefix (bs "include ") l then included fs path (line_name l) room = t else t = l ++ [10].
Proof.
  intros Hf Hl Hp Hr.
  assert (L : MAX_LINE_LEN = 256%nat) by reflexivity.
  destruct Hp as [l Hn|l name Hi Hd|l name Hi Hd Hm|l name before p after t Hi Hd Hp Hb Ht|l name before p after Hi Hd Hp Hb Ht].
  1:{ destruct (has_prefix (bs "include ") l) eqn:E; auto. apply include_prefix in E. contradiction. }
  all: destruct (name_of _ _ Hi) as [-> ->]; pose proof (name_size _ _ Hl Hi) as Hz; unfold included.
  - unfold resolve_include_path. destruct (has_char 46 name) eqn:E; auto. apply no_dot in E. contradiction.
  - rewrite (resolve_ok fs dir) by (auto; lia). unfold places. cbn [find].
    rewrite (Hm (dir ++ 47 :: name)) by now left. rewrite (Hm (DATA_DIR ++ 47 :: name)) by (right; now left). reflexivity.
  - rewrite (resolve_ok fs dir) by (auto; lia). rewrite (find_first fs _ _ _ _ Hp Hb) by congruence. rewrite Ht. now apply takeN_all.
  - rewrite (resolve_ok fs dir) by (auto; lia). rewrite (find_first fs _ _ _ _ Hp Hb) by congruence. now rewrite Ht.
Qed.

(* ---- all lines ------------------------------------------------------------------- *)
Lemma sizeN_app a b : sizeN (a ++ b) = sizeN a + sizeN b.
Proof. unfold sizeN. rewrite app_length. lia. Qed.
Lemma read_lines fs dir path : file_in dir path -> forall ls ts rest line buf,
  Forall a_line ls -> Forall2 (piece fs dir) ls ts -> sizeN buf + sizeN (concat ts) + 256 <= MAX_FILE_SZ ->
  exists line', read_chunks fs path (map (fun l => l ++ [10]) ls ++ rest) line buf = read_chunks fs path rest line' (buf ++ concat ts).
Proof.
  intros Hf. assert (L : MAX_LINE_LEN = 256%nat) by reflexivity.
  induction ls as [|l ls IH]; intros ts rest line buf Hl Hp Hs; inversion Hp as [|? t ? ts' P1 P2]; subst; cbn [map app concat].
  - exists line. now rewrite app_nil_r.
  - inversion Hl as [|? ? Hl1 Hl2]; subst. cbn [concat] in Hs. rewrite sizeN_app in Hs.
    cbn [read_chunks]. rewrite read_line by auto. cbn [bind].
    assert (Hz := proj2 Hl1).
    replace (MAX_FILE_SZ <? N.of_nat (S (length l)) + sizeN buf) with false by (symmetry; apply N.ltb_ge; lia).
    pose proof (piece_ok fs dir path l t (MAX_FILE_SZ - sizeN buf) Hf Hl1 P1 ltac:(lia)) as Hq.
    destruct (has_prefix (bs "include ") l).
    + cbn [bind]. rewrite Hq. rewrite app_assoc. apply IH; auto. rewrite sizeN_app. lia.
    + subst t. assert (El : sizeN (l ++ [10]) = N.of_nat (S (length l))) by (unfold sizeN; rewrite app_length; cbn [length]; lia).
      rewrite El in Hs. replace (MAX_FILE_SZ <=? sizeN buf + N.of_nat (S (length l))) with false by (symmetry; apply N.leb_gt; lia).
      cbn [bind]. rewrite (app_assoc buf (l ++ [10])). apply IH; auto. rewrite sizeN_app, El. lia.
Qed.

(* the last line without a newline *)
Lemma chunk_last l : a_line l -> l <> [] -> chunks l [] MAX_LINE_LEN = [l].
Proof.
  intros [H1 H2] Hn.
  assert (G : forall l cur room, ~ In 10 l -> (length l < room)%nat -> rev cur ++ l <> [] -> chunks l cur room = [rev cur ++ l]).
  { clear. induction l as [|c l IH]; intros cur room Hl Hr Hn; cbn [chunks].
    - rewrite app_nil_r in *. destruct cur; auto. now elim Hn.
    - destruct (N.eqb_spec c 10) as [->|Hc]; [elim Hl; now left|]. cbn [length] in Hr.
      replace (Nat.leb room 1) with false by (symmetry; apply Nat.leb_gt; lia). cbn [orb].
      rewrite IH; [cbn [rev]; now rewrite <- app_assoc|intros X; apply Hl; now right|lia|].
      cbn [rev]. rewrite <- app_assoc. intros X. symmetry in X. now apply app_cons_not_nil in X. }
  apply (G l [] MAX_LINE_LEN); auto. intros X. now apply H1 in X as [X _].
Qed.
Lemma read_last fs path l line buf : a_line l -> l <> [] ->
  exists r, read_chunk fs path l line buf =
    if MAX_FILE_SZ <? N.of_nat (S (length l)) + sizeN buf then Ok None
    else if has_prefix (bs "include ") l then
      Ok (Some (r, buf ++ included fs path (line_name l) (MAX_FILE_SZ - sizeN buf)))
    else if negb (has_char 0 r) then UB
    else if MAX_FILE_SZ <=? sizeN buf + sizeN (zstr r) then UB
    else Ok (Some (r, buf ++ l ++ [10])).
Proof.
  intros Hl Hn. assert (Hz : ~ In 0 l) by (intros X; destruct Hl as [Hl _]; now apply Hl in X as [_ X]).
  unfold read_chunk. rewrite zstr_stop by auto. set (tl := skipn (S (length l)) line). clearbody tl.
  destruct (length l) as [|n] eqn:El; [now destruct l|]. cbv zeta.
  assert (Hx : nth n (l ++ 0 :: tl) 0 =? 10 = false).
  { apply N.eqb_neq. rewrite app_nth1 by lia. destruct Hl as [Hl _]. apply Hl. apply nth_In. lia. }
  rewrite Hx. cbn [negb andb]. destruct Hl as [Hl1 Hl2].
  replace (Nat.leb MAX_LINE_LEN (S n)) with false by (symmetry; apply Nat.leb_gt; lia).
  assert (U : upd (S n) 10 (l ++ 0 :: tl) = l ++ 10 :: tl).
  { rewrite <- El. clear. induction l as [|x l IH]; cbn [length upd app]; [reflexivity|]. now rewrite IH. }
  rewrite U.
  replace (has_prefix (bs "include ") (l ++ 10 :: tl)) with (has_prefix (bs "include ") l)
    by (symmetry; apply (prefix_before _ include_nonl l tl)).
  destruct (has_prefix (bs "include ") l) eqn:Ep.
  - exists (upd (S (S n) - 1) 0 (l ++ 10 :: tl)). destruct (MAX_FILE_SZ <? _); auto.
    assert (U2 : upd (S (S n) - 1) 0 (l ++ 10 :: tl) = l ++ 0 :: tl).
    { replace (S (S n) - 1)%nat with (length l) by lia. clear.
      induction l as [|x l IH]; cbn [length upd app]; [reflexivity|]. now rewrite IH. }
    rewrite U2. repeat f_equal. unfold line_name. f_equal.
    apply prefix_inv in Ep as [r ->]. change (skipn 8 (bs "include " ++ r)) with r.
    rewrite <- app_assoc. change (skipn 8 (bs "include " ++ r ++ 0 :: tl)) with (r ++ 0 :: tl).
    apply zstr_stop. intros X. apply Hz. apply in_app_iff. now right.
  - exists (l ++ 10 :: tl). destruct (MAX_FILE_SZ <? _); auto. destruct (negb _); auto. destruct (MAX_FILE_SZ <=? _); auto.
    repeat f_equal. rewrite <- El, firstn_app.
    replace (S (length l) - length l)%nat with 1%nat by lia. rewrite firstn_all2 by lia. reflexivity.
Qed.

(* files without include lines: the limits *)
Lemma read_plain fs path : forall ls line buf,
  Forall a_line ls -> Forall (fun l => ~ include_line l) ls -> sizeN buf < MAX_FILE_SZ ->
  match read_chunks fs path (map (fun l => l ++ [10]) ls) line buf with
  | Ok (Some b) => b = buf ++ file_of ls /\ sizeN b < MAX_FILE_SZ
  | Ok None => MAX_FILE_SZ < sizeN (buf ++ file_of ls)
  | UB => MAX_FILE_SZ <= sizeN (buf ++ file_of ls)
  | _ => False
  end.
Proof.
  assert (E1 : forall l, sizeN (l ++ [10]) = N.of_nat (S (length l))) by (intros l; unfold sizeN; rewrite app_length; cbn [length]; lia).
  induction ls as [|l ls IH]; intros line buf Hl Hi Hs; cbn [map read_chunks].
  - unfold file_of. cbn [map concat]. rewrite app_nil_r. auto.
  - inversion Hl as [|? ? L1 L2]; inversion Hi as [|? ? I1 I2]; subst.
    replace (buf ++ file_of (l :: ls)) with ((buf ++ l ++ [10]) ++ file_of ls) by (unfold file_of; cbn [map concat]; now rewrite <- !app_assoc).
    rewrite read_line by auto. cbn [bind].
    assert (Es : sizeN (buf ++ l ++ [10]) = sizeN buf + N.of_nat (S (length l))) by now rewrite sizeN_app, E1.
    destruct (N.ltb_spec MAX_FILE_SZ (N.of_nat (S (length l)) + sizeN buf)) as [X|X].
    { cbn [bind]. rewrite sizeN_app, Es. lia. }
    replace (has_prefix (bs "include ") l) with false
      by (symmetry; destruct (has_prefix (bs "include ") l) eqn:E; auto; apply include_prefix in E; contradiction).
    destruct (N.leb_spec MAX_FILE_SZ (sizeN buf + N.of_nat (S (length l)))) as [Y|Y].
    { cbn [bind]. rewrite sizeN_app, Es. lia. }
    cbn [bind]. apply IH; auto. lia.
Qed.

(* ---- nothing else is read -------------------------------------------------------- *)
Lemma chunks_short : forall s cur room c, (length cur + room <= MAX_LINE_LEN)%nat -> (1 <= room)%nat ->
  In c (chunks s cur room) -> (length c <= MAX_LINE_LEN)%nat.
Proof.
  assert (L : MAX_LINE_LEN = 256%nat) by reflexivity.
  induction s as [|x s IH]; intros cur room c Hr H1 H; cbn [chunks] in H.
  - destruct cur as [|y cur]; [destruct H|]. destruct H as [<-|[]]. rewrite rev_length. lia.
  - destruct (_ || _) eqn:E.
    + destruct H as [<-|H]; [rewrite rev_length; cbn [length]; lia|]. apply (IH [] MAX_LINE_LEN c); auto; cbn [length]; lia.
    + apply orb_false_iff in E as [_ E]. apply Nat.leb_gt in E. apply (IH (x :: cur) (room - 1)%nat c); auto; cbn [length]; lia.
Qed.
Lemma zstr_upto : forall l i, nth_error l i = Some 0 -> (length (zstr l) <= i)%nat.
Proof.
  induction l as [|x l IH]; intros i H; [now destruct i|]. cbn [zstr]. destruct i as [|i]; cbn [nth_error] in H.
  - injection H as ->. reflexivity.
  - destruct (x =? 0); cbn [length]; [lia|]. apply IH in H. lia.
Qed.
Lemma drop_size p s : (length (drop_while p s) <= length s)%nat.
Proof. induction s as [|x s IH]; cbn [drop_while length]; [lia|]. destruct (p x); cbn [length]; lia. Qed.
Lemma nth_upd {A} (x : A) : forall l i, (i < length l)%nat -> nth_error (upd i x l) i = Some x.
Proof.
  induction l as [|y l IH]; intros i H; cbn [length] in H; [lia|]. destruct i as [|i]; cbn [upd nth_error]; auto. apply IH. lia.
Qed.
Lemma upd_size {A} (x : A) : forall l i, length (upd i x l) = length l.
Proof. induction l as [|y l IH]; intros i; [now destruct i|]. destruct i as [|i]; cbn [upd length]; auto. Qed.
Lemma zstr_size l : (length (zstr l) <= length l)%nat.
Proof. induction l as [|x l IH]; cbn [zstr length]; [lia|]. destruct (x =? 0); cbn [length]; lia. Qed.

Section Same.
Variables (fs fs' : str -> fent) (dir path : str).
Hypothesis Hf : file_in dir path.
Hypothesis Hs : forall name p, ~ In 46 name -> In p (places dir name) -> fs p = fs' p.
Lemma included_same name room : (length name <= 256)%nat -> included fs path name room = included fs' path name room.
Proof.
  intros Hn. unfold included. destruct (has_char 46 name) eqn:E.
  - unfold resolve_include_path. now rewrite E.
  - apply no_dot in E. rewrite !(resolve_ok _ dir) by auto. unfold places. cbn [find].
    rewrite <- (Hs name (dir ++ 47 :: name)), <- (Hs name (DATA_DIR ++ 47 :: name)) by (auto; unfold places; cbn [In]; auto).
    destruct (exists_file (fs (dir ++ 47 :: name))).
    + now rewrite <- (Hs name (dir ++ 47 :: name)) by (auto; unfold places; cbn [In]; auto).
    + destruct (exists_file _); auto. now rewrite <- (Hs name (DATA_DIR ++ 47 :: name)) by (auto; unfold places; cbn [In]; auto).
Qed.
Lemma chunk_same c line buf : (length c <= MAX_LINE_LEN)%nat -> read_chunk fs path c line buf = read_chunk fs' path c line buf.
Proof.
  intros Hc. assert (L : MAX_LINE_LEN = 256%nat) by reflexivity. unfold read_chunk. cbv zeta.
  set (line0 := c ++ 0 :: skipn (S (length c)) line).
  assert (Hz : (length (zstr line0) <= length c)%nat).
  { apply zstr_upto. unfold line0. rewrite nth_error_app2, Nat.sub_diag by lia. reflexivity. }
  assert (H0 : (S (length c) <= length line0)%nat) by (unfold line0; rewrite app_length; cbn [length]; lia).
  destruct (length (zstr line0)) as [|l] eqn:El; auto.
  set (nl := nth l line0 0 =? 10). destruct (negb nl && _) eqn:Eb; auto. destruct (MAX_FILE_SZ <? _); auto.
  set (line1 := if nl then line0 else upd (S l) 10 line0).
  set (len := if nl then S l else S (S l)).
  assert (Hl : (length line1 = length line0)%nat) by (unfold line1; destruct nl; auto; apply upd_size).
  assert (Hn : nth_error line1 (len - 1) = Some 10).
  { unfold line1, len. destruct nl eqn:En.
    - apply N.eqb_eq in En. replace (S l - 1)%nat with l by lia. rewrite <- En. apply nth_error_nth'. lia.
    - replace (S (S l) - 1)%nat with (S l) by lia. apply nth_upd. lia. }
  destruct (has_prefix (bs "include ") line1) eqn:Ep; auto.
  assert (Hlen : (len - 1 < length line1)%nat) by (apply nth_error_Some; congruence).
  assert (Hge : (8 <= len - 1)%nat).
  { apply prefix_inv in Ep as [r Er]. rewrite Er in Hn. destruct (Nat.le_gt_cases 8 (len - 1)) as [X|X]; auto. exfalso.
    rewrite nth_error_app1 in Hn by (change (length (bs "include ")) with 8%nat; lia).
    apply nth_error_In in Hn. now apply include_nonl in Hn. }
  assert (Hlen2 : (len - 1 <= 256)%nat) by (unfold len; destruct nl; cbn [negb andb] in Eb; [lia|apply Nat.leb_gt in Eb; lia]).
  rewrite included_same; auto.
  etransitivity; [apply drop_size|].
  transitivity (len - 1 - 8)%nat; [|lia]. apply zstr_upto.
  assert (G : forall {A} (l : list A) n i, nth_error (skipn n l) i = nth_error l (n + i)).
  { clear. intros A l n. revert l. induction n as [|n IH]; intros l i; auto. destruct l; [now destruct i|]. apply IH. }
  rewrite G. replace (8 + (len - 1 - 8))%nat with (len - 1)%nat by lia. apply nth_upd. exact Hlen.
Qed.
Lemma chunks_same : forall cs line buf, (forall c, In c cs -> (length c <= MAX_LINE_LEN)%nat) ->
  read_chunks fs path cs line buf = read_chunks fs' path cs line buf.
Proof.
  induction cs as [|c cs IH]; intros line buf H; auto. cbn [read_chunks]. rewrite <- chunk_same by (apply H; now left).
  destruct (read_chunk fs path c line buf) as [[[line1 buf1]|]| | |]; auto. cbn [bind]. apply IH. intros x Hx. apply H. now right.
Qed.
End Same.
Lemma no_dots name : ~ In 46 name -> ~ In (bs "..") (components name []) /\ ~ In (bs ".") (components name []).
Proof.
  intros H.
  assert (G : forall s cur, ~ In 46 s -> ~ In 46 cur -> forall c, In c (components s cur) -> ~ In 46 c).
  { clear. induction s as [|x s IH]; intros cur Hs Hc c Hi; cbn [components] in Hi.
    - destruct Hi as [<-|[]]. now rewrite <- in_rev.
    - assert (Hs' : ~ In 46 s) by (intros X; apply Hs; now right). destruct (x =? 47).
      + destruct Hi as [<-|Hi]; [now rewrite <- in_rev|]. apply (IH [] Hs' (fun X => X) c Hi).
      + apply (IH (x :: cur) Hs'); auto. intros [X|X]; [apply Hs; now left|auto]. }
  split; intros X; apply (G name [] H (fun X => X) _ X); cbn; auto.
Qed.
