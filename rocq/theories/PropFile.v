(* C53 (configuration files and what they include). *)
From Coq Require Import String.
From Verif Require Import Base Lib Types Str Config ReadFile SpecFile FileProofs.
From Coq Require Import List.
Import ListNotations.
Local Open Scope N_scope.
Local Open Scope list_scope.
Local Notation length := List.length.
Local Opaque MAX_FILE_SZ PATH_MAX DATA_DIR MAX_LINE_LEN.

(* The text that is parsed is that of the file, line by line, with each include line
   replaced by the contents of the included file. *)
Theorem C53_text : forall fs junk dir path ls ts,
  file_in dir path -> fs path = FFile (file_of ls) -> Forall a_line ls -> Forall2 (piece fs dir) ls ts ->
  sizeN (concat ts) + 256 <= MAX_FILE_SZ -> ~ In 0 (concat ts) ->
  read_file fs junk path = Ok (Some (concat ts)).
Proof.
  intros fs junk dir path ls ts Hf Hp Hl Ht Hs Hz. unfold read_file. rewrite Hp.
  pose proof (chunks_lines ls [] Hl) as E. rewrite app_nil_r in E. cbn [chunks] in E.
  destruct (read_lines fs dir path Hf ls ts [] junk [] Hl Ht) as [line' R]; [exact Hs|]. rewrite E. match goal with |- context[read_chunks ?a ?b ?c ?d ?e] => change (read_chunks a b c d e) with (read_chunks fs path (map (fun l : list N => l ++ [10]) ls ++ []) junk []) end. rewrite R.
  cbn [read_chunks bind app]. replace (MAX_FILE_SZ <=? sizeN (concat ts)) with false by (symmetry; apply N.leb_gt; lia).
  now rewrite zstr_id.
Qed.
(* A last line without newline: the same text, if anything is returned. *)
Theorem C53_last_line : forall fs junk dir path ls ts l t text,
  file_in dir path -> fs path = FFile (file_of ls ++ l) -> Forall a_line ls -> a_line l -> l <> [] ->
  Forall2 (piece fs dir) ls ts -> piece fs dir l t -> sizeN (concat ts ++ t) + 512 <= MAX_FILE_SZ -> ~ In 0 (concat ts ++ t) ->
  read_file fs junk path = Ok text -> text = Some (concat ts ++ t).
Proof.
  intros fs junk dir path ls ts l t text Hf Hp Hls Hl Hn Hts Ht Hs Hz. unfold read_file. rewrite Hp.
  pose proof (chunks_lines ls l Hls) as E. rewrite (chunk_last l Hl Hn) in E. rewrite sizeN_app in Hs.
  destruct (read_lines fs dir path Hf ls ts [l] junk [] Hls Hts) as [line' R]; [cbn [app]; change (sizeN []) with 0; lia|].
  rewrite E. match goal with |- context[read_chunks ?a ?b ?c ?d ?e] => change (read_chunks a b c d e) with (read_chunks fs path (map (fun l : list N => l ++ [10]) ls ++ [l]) junk []) end. rewrite R.
  cbn [read_chunks app]. destruct (read_last fs path l line' (concat ts) Hl Hn) as [r ->].
  assert (L : MAX_LINE_LEN = 256%nat) by reflexivity. pose proof (proj2 Hl) as Hll.
  replace (MAX_FILE_SZ <? N.of_nat (S (length l)) + sizeN (concat ts)) with false by (symmetry; apply N.ltb_ge; lia).
  pose proof (piece_ok fs dir path l t (MAX_FILE_SZ - sizeN (concat ts)) Hf Hl Ht ltac:(lia)) as Hq.
  assert (G : forall o, (if MAX_FILE_SZ <=? sizeN (concat ts ++ t) then UB else Ok (Some (zstr (concat ts ++ t)))) = Ok o -> o = Some (concat ts ++ t)).
  { intros o. rewrite zstr_id by auto. destruct (_ <=? _); intros X; [discriminate|]. injection X as <-. reflexivity. }
  destruct (has_prefix (bs "include ") l).
  - cbn [bind]. rewrite Hq. apply G.
  - subst t. destruct (negb _); [cbn [bind]; discriminate|]. destruct (MAX_FILE_SZ <=? _ + _); [cbn [bind]; discriminate|]. cbn [bind]. apply G.
Qed.
(* Nothing else is read: neither the result nor a failure depends on anything but the
   file itself and the two places of each name without a dot ... *)
Theorem C53_only : forall fs fs' junk dir path, file_in dir path -> fs path = fs' path ->
  (forall name p, ~ In 46 name -> In p (places dir name) -> fs p = fs' p) ->
  read_file fs junk path = read_file fs' junk path.
Proof.
  intros fs fs' junk dir path Hf Hp Hs. unfold read_file. rewrite <- Hp. destruct (fs path) as [| |c]; auto.
  rewrite <- (chunks_same fs fs' dir path Hf Hs); auto.
  intros x Hx. apply (chunks_short c [] MAX_LINE_LEN x); auto; cbn [length]; change MAX_LINE_LEN with 256%nat; lia.
Qed.
(* ... which lie below the directory of the file or the data directory. *)
Theorem C53_confined : forall dir name p, ~ In 46 name -> In p (places dir name) -> below dir p \/ below DATA_DIR p.
Proof.
  intros dir name p Hn [<-|[<-|[]]]; [left|right]; exists name; (split; [reflexivity|now apply no_dots]).
Qed.
(* The limits of a file without include lines: with 65536 bytes or more it is not
   accepted, and with exactly 65536 bytes the buffer overflows. *)
Theorem C53_limit : forall fs junk path ls, fs path = FFile (file_of ls) -> Forall a_line ls ->
  Forall (fun l => ~ include_line l) ls ->
  (sizeN (file_of ls) < MAX_FILE_SZ <-> read_file fs junk path = Ok (Some (file_of ls)))
  /\ (sizeN (file_of ls) = MAX_FILE_SZ -> read_file fs junk path = UB)
  /\ forall text, read_file fs junk path = Ok (Some text) -> text = file_of ls.
Proof.
  intros fs junk path ls Hp Hl Hi. unfold read_file. rewrite Hp.
  pose proof (chunks_lines ls [] Hl) as E. rewrite app_nil_r in E. rewrite E. cbn [chunks]. rewrite app_nil_r.
  assert (P0 : 0 < MAX_FILE_SZ) by reflexivity.
  pose proof (read_plain fs path ls junk [] Hl Hi P0) as H. cbn [app] in H.
  assert (Z : ~ In 0 (file_of ls)).
  { clear -Hl. unfold file_of. induction Hl as [|l ls H _ IH]; [intros []|]. cbn [map concat]. intros X.
    apply in_app_iff in X as [X|X]; auto. now apply line_zero in X. }
  destruct (read_chunks _ _ _ _ _) as [[b|]|?| |]; cbn [bind]; try contradiction.
  - destruct H as [-> H]. replace (MAX_FILE_SZ <=? sizeN (file_of ls)) with false by (symmetry; now apply N.leb_gt).
    rewrite zstr_id by auto. split; [tauto|]. split; [lia|]. intros text X. injection X as <-. reflexivity.
  - split; [split; [lia|discriminate]|]. split; [lia|discriminate].
  - split; [split; [lia|discriminate]|]. split; [auto|discriminate].
Qed.

(* ---- examples -------------------------------------------------------------------- *)
Definition ex53_path : str := bs "/etc/keyd/default.conf".
Definition dir53 : str := bs "/etc/keyd".
Lemma ex53_in : file_in dir53 ex53_path.
Proof.
  exists (bs "default.conf"). split; [reflexivity|]. split; [|repeat split; try discriminate; vm_compute; reflexivity].
  cbn. intros H. repeat (destruct H as [H|H]; [discriminate|]). exact H.
Qed.
Definition fs_of (files : list (str * fent)) (p : str) : fent :=
  match find (fun x => str_eqb (fst x) p) files with Some (_, e) => e | None => FMissing end.
Definition nl (s : string) : str := bs s ++ [10].
Definition ex53_fs : str -> fent := fs_of
  [ (ex53_path, FFile (file_of [bs "[ids]"; bs "*"; bs "include  common"; bs "include layouts/dvorak"; bs "include secret.txt"; bs "include gone"; bs "[main]"; bs "a = b"]));
    (bs "/etc/keyd/common", FFile (nl "[global]" ++ nl "macro_timeout = 100"));
    (bs "/usr/local/share/keyd/common", FFile (nl "[other]"));
    (bs "/usr/local/share/keyd/layouts/dvorak", FFile (nl "[dvorak:layout]" ++ nl "s = o"));
    (bs "/etc/keyd/secret.txt", FFile (nl "[leak]")) ].
Lemma short_line l : forallb (fun x => negb (x =? 10) && negb (x =? 0)) l && Nat.ltb (length l) 256 = true -> a_line l.
Proof.
  intros H. apply andb_true_iff in H as [H1 H2]. apply Nat.ltb_lt in H2. split; [|exact H2]. rewrite forallb_forall in H1.
  intros x Hx. apply H1 in Hx. rewrite andb_true_iff, !negb_true_iff, !N.eqb_neq in Hx. exact Hx.
Qed.
Lemma not_include l : has_prefix (bs "include ") l = false -> ~ include_line l.
Proof. intros H X. apply include_prefix in X. congruence. Qed.
Lemma not_in_check x l : existsb (N.eqb x) l = false -> ~ In x l.
Proof. intros H X. rewrite (proj2 (existsb_exists (N.eqb x) l)) in H; [discriminate|]. exists x. split; auto. apply N.eqb_refl. Qed.
Example C53_example : exists ls ts, ex53_fs ex53_path = FFile (file_of ls) /\ Forall a_line ls /\ Forall2 (piece ex53_fs dir53) ls ts
  /\ sizeN (concat ts) + 256 <= MAX_FILE_SZ /\ ~ In 0 (concat ts)
  /\ forall junk, read_file ex53_fs junk ex53_path = Ok (Some
       (nl "[ids]" ++ nl "*" ++ nl "[global]" ++ nl "macro_timeout = 100" ++ nl "[dvorak:layout]" ++ nl "s = o" ++ nl "[main]" ++ nl "a = b")).
Proof.
  pose (ls := [bs "[ids]"; bs "*"; bs "include  common"; bs "include layouts/dvorak"; bs "include secret.txt"; bs "include gone"; bs "[main]"; bs "a = b"]).
  pose (ts := [nl "[ids]"; nl "*"; nl "[global]" ++ nl "macro_timeout = 100"; nl "[dvorak:layout]" ++ nl "s = o"; []; []; nl "[main]"; nl "a = b"]).
  assert (H1 : ex53_fs ex53_path = FFile (file_of ls)) by (vm_compute; reflexivity).
  assert (H2 : Forall a_line ls) by (repeat (constructor; [apply short_line; vm_compute; reflexivity|]); constructor).
  assert (I : forall n name, (forall r, name <> 32 :: r) -> includes (bs "include " ++ repeat 32 n ++ name) name)
    by (intros n name H; split; [now exists n|exact H]).
  assert (H3 : Forall2 (piece ex53_fs dir53) ls ts).
  { constructor; [apply piece_line; apply not_include; reflexivity|].
    constructor; [apply piece_line; apply not_include; reflexivity|].
    constructor.
    { apply (piece_file _ _ _ (bs "common") [] (bs "/etc/keyd/common") [bs "/usr/local/share/keyd/common"]); [|apply not_in_check; reflexivity|reflexivity|intros q []|vm_compute; reflexivity].
      apply (I 1%nat). intros r. discriminate. }
    constructor.
    { apply (piece_file _ _ _ (bs "layouts/dvorak") [bs "/etc/keyd/layouts/dvorak"] (bs "/usr/local/share/keyd/layouts/dvorak") []); [|apply not_in_check; reflexivity|reflexivity| |vm_compute; reflexivity].
      - apply (I 0%nat). intros r. discriminate.
      - intros q [<-|[]]. vm_compute. reflexivity. }
    constructor.
    { apply (piece_dot _ _ _ (bs "secret.txt")); [apply (I 0%nat); intros r; discriminate|]. cbn. tauto. }
    constructor.
    { apply (piece_none _ _ _ (bs "gone")); [apply (I 0%nat); intros r; discriminate|apply not_in_check; reflexivity|].
      intros p [<-|[<-|[]]]; vm_compute; reflexivity. }
    constructor; [apply piece_line; apply not_include; reflexivity|].
    constructor; [apply piece_line; apply not_include; reflexivity|]. constructor. }
  assert (H4 : sizeN (concat ts) + 256 <= MAX_FILE_SZ) by (vm_compute; discriminate).
  assert (H5 : ~ In 0 (concat ts)) by (apply not_in_check; vm_compute; reflexivity).
  exists ls, ts. do 5 (split; [assumption|]). intros junk. exact (C53_text _ junk _ _ _ _ ex53_in H1 H2 H3 H4 H5).
Qed.

(* ---- limits ----------------------------------------------------------------------- *)
(* an included file without a final newline runs into the line after the include: the
   binding of c is lost *)
Theorem C53_glued_refuted : exists fs, fs ex53_path = FFile (file_of [bs "[main]"; bs "include part"; bs "c = d"])
  /\ fs (bs "/etc/keyd/part") = FFile (bs "a = b")
  /\ forall junk, read_file fs junk ex53_path = Ok (Some (nl "[main]" ++ bs "a = b" ++ nl "c = d")).
Proof.
  exists (fs_of [(ex53_path, FFile (file_of [bs "[main]"; bs "include part"; bs "c = d"])); (bs "/etc/keyd/part", FFile (bs "a = b"))]).
  split; [vm_compute; reflexivity|]. split; [vm_compute; reflexivity|]. intros junk. vm_compute. reflexivity.
Qed.
(* a file whose last line lacks the newline and is the longest: the string runs on into
   memory that was never written *)
Theorem C53_no_newline_refuted : exists fs junk, length junk = S MAX_LINE_LEN /\ fs ex53_path = FFile (nl "[main]" ++ bs "a = macro(hello)")
  /\ read_file fs junk ex53_path = UB.
Proof.
  exists (fs_of [(ex53_path, FFile (nl "[main]" ++ bs "a = macro(hello)"))]), (repeat 120 (S MAX_LINE_LEN)).
  split; [reflexivity|]. split; vm_compute; reflexivity.
Qed.
(* a line that starts with a NUL byte: the byte before the array is read *)
Theorem C53_nul_refuted : exists fs, fs ex53_path = FFile (nl "[main]" ++ [0; 10]) /\ forall junk, read_file fs junk ex53_path = UB.
Proof.
  exists (fs_of [(ex53_path, FFile (nl "[main]" ++ [0; 10]))]). split; [vm_compute; reflexivity|]. intros junk. vm_compute. reflexivity.
Qed.

Definition C53_all := (C53_text, C53_last_line, C53_only, C53_confined, C53_limit, C53_glued_refuted, C53_no_newline_refuted, C53_nul_refuted).
Print Assumptions C53_all.
