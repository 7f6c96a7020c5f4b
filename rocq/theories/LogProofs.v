(* Proofs about Log.v. *)
From Coq Require Import String Lia.
From Verif Require Import Base KeyTable Log SpecLog.
Local Open Scope N_scope.
Local Open Scope list_scope.
Local Notation length := List.length.

(* The result of the loop when the buffer is large enough *)
Fixpoint paint (col : bool) (s : str) (inside : bool) : str :=
  match s with
  | [] => []
  | c :: r =>
      match r with
      | 123 :: r2 =>
          if escape_num c =? 0 then
            if (c =? 125) && inside then (if col then [27; 91; 48; 109] else []) ++ paint col r false
            else c :: paint col r inside
          else (if col then [27; 91; 51; 48 + escape_num c; 109] else []) ++ paint col r2 true
      | _ =>
          if (c =? 125) && inside then (if col then [27; 91; 48; 109] else []) ++ paint col r false
          else c :: paint col r inside
      end
  end.

Lemma brace (r : str) : (exists r2, r = 123 :: r2) \/ (forall r2, r <> 123 :: r2).
Proof.
  destruct r as [|x r2]; [right; discriminate|].
  destruct (N.eq_dec x 123) as [->|Hn]; [left; eauto|right; intros q E; congruence].
Qed.

Lemma not_brace {A} (r : str) (x : str -> A) (y : A) : (forall r2, r <> 123 :: r2) ->
  match r with 123 :: q => x q | _ => y end = y.
Proof.
  intro H; destruct r as [|n r2]; auto. destruct n as [|p]; auto.
  repeat (destruct p as [p|p|]; auto). exfalso; now apply (H r2).
Qed.

Lemma paint_step col c r i :
  (exists r2, r = 123 :: r2 /\ escape_num c <> 0 /\
     paint col (c :: r) i = (if col then [27; 91; 51; 48 + escape_num c; 109] else []) ++ paint col r2 true /\
     (forall buf, Nat.lt (length buf) BUF ->
        colorize_loop col (c :: r) buf i =
        colorize_loop col r2
                (if col && Nat.ltb 5 (BUF - length buf) then buf ++ [27; 91; 51; 48 + escape_num c; 109]
                 else buf) true)) \/
  ((forall r2, r = 123 :: r2 -> escape_num c = 0) /\
   ((c = 125 /\ i = true /\ paint col (c :: r) i = (if col then [27; 91; 48; 109] else []) ++ paint col r false /\
     (forall buf, Nat.lt (length buf) BUF ->
        colorize_loop col (c :: r) buf i = colorize_loop col r
                  (if col && Nat.ltb 4 (BUF - length buf) then buf ++ [27; 91; 48; 109] else buf) false)) \/
    (~ (i = true /\ c = 125) /\ paint col (c :: r) i = c :: paint col r i /\
     (forall buf, Nat.lt (length buf) BUF ->
        colorize_loop col (c :: r) buf i = colorize_loop col r (buf ++ [c]) i)))).
Proof.
  assert (HB : forall buf : str, Nat.lt (length buf) BUF -> Nat.ltb (length buf) BUF = true)
    by (intros; now apply Nat.ltb_lt).
  destruct (brace r) as [[r2 ->]|Hb].
  - destruct (N.eqb_spec (escape_num c) 0) as [E|E].
    + right; split; [auto|].
      destruct (N.eqb_spec c 125) as [->|Hc]; [destruct i|].
      * left; repeat split; auto. intros buf Hl. cbn [colorize_loop]. rewrite (HB buf Hl). reflexivity.
      * right; split; [intros [? _]; discriminate|]. split; [reflexivity|].
        intros buf Hl. cbn [colorize_loop]. rewrite (HB buf Hl). reflexivity.
      * right; split; [tauto|]. split.
        { cbn [paint]. rewrite E. apply N.eqb_neq in Hc. now rewrite Hc. }
        { intros buf Hl. cbn [colorize_loop]. rewrite (HB buf Hl), E.
          apply N.eqb_neq in Hc. now rewrite Hc. }
    + left; exists r2; repeat split; auto.
      * cbn [paint]. apply N.eqb_neq in E. now rewrite E.
      * intros buf Hl. cbn [colorize_loop]. rewrite (HB buf Hl). apply N.eqb_neq in E. now rewrite E.
  - right; split; [intros r2 E; now apply Hb in E|].
    assert (P : paint col (c :: r) i =
      if (c =? 125) && i then (if col then [27; 91; 48; 109] else []) ++ paint col r false
            else c :: paint col r i) by (cbn [paint]; apply (not_brace r (fun r2 => if escape_num c =? 0 then _ else _) _ Hb)).
    assert (L : forall buf, Nat.lt (length buf) BUF -> colorize_loop col (c :: r) buf i =
      if (c =? 125) && i then
              colorize_loop col r
                (if col && Nat.ltb 4 (BUF - length buf) then buf ++ [27; 91; 48; 109] else buf) false
            else colorize_loop col r (buf ++ [c]) i).
    { intros buf Hl. cbn [colorize_loop]. rewrite (HB buf Hl). apply (not_brace r (fun r2 => if escape_num c =? 0 then _ else _) _ Hb). }
    destruct (N.eqb_spec c 125) as [->|Hc]; [destruct i|]; cbn [andb] in *.
    + left; auto.
    + right; split; [intros [? _]; discriminate|]; auto.
    + right; split; [tauto|]; auto.
Qed.

Lemma colorize_paint col n : forall s buf i, Nat.le (length s) n ->
  Nat.lt (length buf + length (paint col s i)) BUF ->
  colorize_loop col s buf i = buf ++ paint col s i.
Proof.
  induction n as [|n IH]; intros s buf i Hn Hl.
  - destruct s; [cbn; now rewrite app_nil_r|cbn in Hn; lia].
  - destruct s as [|c r]; [cbn; now rewrite app_nil_r|].
    assert (HB : Nat.lt (length buf) BUF) by lia.
    destruct (paint_step col c r i) as
      [(r2 & -> & E & P & L)|(E & [(-> & -> & P & L)|(Hc & P & L)])];
      rewrite P in Hl |- *; rewrite (L buf HB); cbn [length] in Hn.
    + rewrite app_length in Hl. destruct col; cbn [andb length] in *.
      * replace (Nat.ltb 5 (BUF - length buf)) with true
          by (symmetry; apply Nat.ltb_lt; unfold BUF in *; lia).
        rewrite IH; [now rewrite <- app_assoc|lia|]. rewrite app_length; cbn [length]; lia.
      * rewrite IH; [reflexivity|lia|cbn in *; lia].
    + rewrite app_length in Hl. destruct col; cbn [andb length] in *.
      * replace (Nat.ltb 4 (BUF - length buf)) with true
          by (symmetry; apply Nat.ltb_lt; unfold BUF in *; lia).
        rewrite IH; [now rewrite <- app_assoc|lia|]. rewrite app_length; cbn [length]; lia.
      * rewrite IH; [reflexivity|lia|cbn in *; lia].
    + cbn [length] in Hl. rewrite IH; [now rewrite <- app_assoc|lia|].
      rewrite app_length; cbn [length]; lia.
Qed.

Lemma paint_length col n : forall s i, Nat.le (length s) n ->
  Nat.le (length (paint col s i)) (4 * length s).
Proof.
  induction n as [|n IH]; intros s i Hn.
  - destruct s; [cbn; lia|cbn in Hn; lia].
  - destruct s as [|c r]; [cbn; lia|].
    destruct (paint_step col c r i) as
      [(r2 & -> & E & P & L)|(E & [(-> & -> & P & L)|(Hc & P & L)])]; rewrite P; cbn [length] in Hn.
    + rewrite app_length. specialize (IH r2 true ltac:(lia)). destruct col; cbn [length] in *; lia.
    + rewrite app_length. specialize (IH r false ltac:(lia)). destruct col; cbn [length] in *; lia.
    + specialize (IH r i ltac:(lia)). cbn [length] in *; lia.
Qed.

Lemma colorize_short col s : Nat.lt (length s) 256 -> colorize col s = Ok (paint col s false).
Proof.
  intro H. pose proof (paint_length col (length s) s false (le_n _)) as HL.
  unfold colorize. rewrite (colorize_paint col (length s) s [] false (le_n _));
    cbn [app length]; [|unfold BUF; lia].
  replace (Nat.ltb _ _) with true; [reflexivity|]. symmetry. apply Nat.ltb_lt. unfold BUF. lia.
Qed.

Lemma escape_palette c d : In (c, d) palette -> escape_num c = d /\ d <> 0.
Proof.
  intro H. cbn in H. repeat destruct H as [H|H]; try contradiction;
    injection H as <- <-; split; auto; discriminate.
Qed.
Lemma palette_escape c : escape_num c <> 0 -> In (c, escape_num c) palette.
Proof.
  unfold escape_num. intro H.
  repeat match goal with
  | H : context [if ?c =? ?k then _ else _] |- _ =>
      let e := fresh in destruct (N.eqb_spec c k) as [e|e]; [subst c; vm_compute; tauto|]
  end. contradiction.
Qed.

(* Letters that copy themselves *)
Lemma paint_self col c r i : escape_num c = 0 -> c <> 125 ->
  paint col (c :: r) i = c :: paint col r i.
Proof.
  intros E Hc. destruct (paint_step col c r i) as
    [(r2 & -> & E' & _)|(_ & [(-> & _)|(_ & P & _)])]; try contradiction; auto.
Qed.

Lemma shows_letter k x w : shows k x w -> escape_num k = 0 /\ k <> 125 /\ k <> 108 /\ k <> 122.
Proof. intros []; repeat split; discriminate. Qed.

Lemma vprintf_shows k x w f a : shows k x w ->
  vprintf true (k :: f) (x :: a) = (t <- vprintf false f a ;; Ok (w ++ t)).
Proof.
  intros []; cbn [vprintf]; try reflexivity.
  replace (0 <=? Z.of_N n)%Z with true by (symmetry; apply Z.leb_le; lia).
  cbn [andb N.eqb orb Pos.eqb]. now rewrite N2Z.id.
Qed.

Lemma paint_conversion col m k f i a : modifiers m -> escape_num k = 0 -> k <> 125 ->
  vprintf true (paint col (m ++ k :: f) i) a = vprintf true (k :: paint col f i) a.
Proof.
  intros H E1 E2; induction H as [|c m Hc _ IH]; cbn [app].
  - now rewrite paint_self.
  - rewrite paint_self by (destruct Hc; subst; discriminate || reflexivity).
    rewrite <- IH. cbn [vprintf].
    destruct Hc; subst; reflexivity.
Qed.

Lemma vprintf_colour col d t a :
  vprintf false ((if col : bool then [27; 91; 51; 48 + d; 109] else []) ++ t) a =
  (if 48 + d =? 37 then vprintf false ((if col then [27; 91; 51; 48 + d; 109] else []) ++ t) a
   else u <- vprintf false t a ;; Ok ((if col then [27; 91; 51; 48 + d; 109] else []) ++ u)).
Proof.
  destruct (N.eqb_spec (48 + d) 37) as [E|E]; [lia|]. apply N.eqb_neq in E.
  destruct col; cbn [app].
  - cbn [vprintf]. rewrite E. cbn [N.eqb Pos.eqb].
    destruct (vprintf false t a); reflexivity.
  - destruct (vprintf false t a); reflexivity.
Qed.
Lemma vprintf_colour_end col t a :
  vprintf false ((if col : bool then [27; 91; 48; 109] else []) ++ t) a =
  (u <- vprintf false t a ;; Ok ((if col then [27; 91; 48; 109] else []) ++ u)).
Proof.
  destruct col; cbn [app]; [cbn [vprintf N.eqb Pos.eqb]|]; destruct (vprintf false t a); reflexivity.
Qed.

Lemma says_prints col i f a t : says col i f a t -> vprintf false (paint col f i) a = Ok t.
Proof.
  intro H; induction H as
    [i a|i l d f a t Hp _ IH|f a t _ IH|i m k x w f a t Hm Hs _ IH|i c f a t H1 H2 H3 _ IH].
  - reflexivity.
  - destruct (escape_palette _ _ Hp) as [E Hd].
    cbn [paint]. rewrite E. apply N.eqb_neq in Hd. rewrite Hd.
    rewrite vprintf_colour.
    destruct (N.eqb_spec (48 + d) 37) as [X|X]; [lia|]. now rewrite IH.
  - destruct (paint_step col 125 f true) as
      [(r2 & -> & E' & _)|(_ & [(_ & _ & P & _)|(Hc & _)])]; [now cbv in E'| |tauto].
    rewrite P, vprintf_colour_end, IH. reflexivity.
  - destruct (shows_letter _ _ _ Hs) as (E1 & E2 & _).
    rewrite paint_self by (reflexivity || discriminate).
    cbn [vprintf]. rewrite N.eqb_refl.
    rewrite paint_conversion by assumption. rewrite (vprintf_shows _ _ _ _ _ Hs), IH. reflexivity.
  - destruct (paint_step col c f i) as
      [(r2 & -> & E' & _)|(_ & [(-> & -> & _)|(_ & P & _)])].
    + exfalso. apply (H3 _ r2 (palette_escape _ E')). reflexivity.
    + exfalso; apply H2; auto.
    + rewrite P. cbn [vprintf]. apply N.eqb_neq in H1. rewrite H1, IH. reflexivity.
Qed.

Lemma proper_tail c f : proper (c :: f) -> proper f.
Proof. intros H p r E. apply (H (c :: p) r). cbn; now rewrite E. Qed.
Lemma proper_app p f : proper (p ++ f) -> proper f.
Proof. intros H q r E. apply (H (p ++ q) r). rewrite E. now rewrite app_assoc. Qed.

Lemma prints_says col n : forall f i a t, Nat.le (length f) n -> proper f ->
  vprintf false (paint col f i) a = Ok t -> says col i f a t.
Proof.
  induction n as [|n IH]; intros f i a t Hn Hp H.
  - destruct f; [|cbn in Hn; lia]. injection H as <-. constructor.
  - destruct f as [|c r]; [injection H as <-; constructor|]. cbn [length] in Hn.
    destruct (paint_step col c r i) as
      [(r2 & -> & E & P & _)|(E & [(-> & -> & P & _)|(Hc & P & _)])]; rewrite P in H.
    + rewrite vprintf_colour in H. destruct (N.eqb_spec (48 + escape_num c) 37) as [X|X]; [lia|].
      destruct (vprintf false (paint col r2 true) a) as [u| | |] eqn:Ev; try discriminate.
      injection H as <-. apply says_open; [now apply palette_escape|].
      apply IH; auto; [cbn in Hn; lia|]. now apply proper_tail, proper_tail in Hp.
    + rewrite vprintf_colour_end in H.
      destruct (vprintf false (paint col r false) a) as [u| | |] eqn:Ev; try discriminate.
      injection H as <-. apply says_close. apply IH; auto; [lia|]. now apply proper_tail in Hp.
    + cbn [vprintf] in H. destruct (N.eqb_spec c 37) as [->|H37].
      * destruct (Hp [] r eq_refl) as (m & k & r' & -> & Hm & Hk).
        assert (K : escape_num k = 0 /\ k <> 125).
        { cbn in Hk. repeat destruct Hk as [<-|Hk]; try contradiction; split; auto; discriminate. }
        rewrite paint_conversion in H by tauto. cbn [vprintf] in H.
        assert (K2 : (k =? 108) || (k =? 122) = false).
        { cbn in Hk. repeat destruct Hk as [<-|Hk]; try contradiction; reflexivity. }
        rewrite K2 in H.
        assert (S : forall x w a' t', shows k x w -> a = x :: a' ->
                    vprintf false (paint col r' i) a' = Ok t' -> t = w ++ t' ->
                    says col i (37 :: m ++ k :: r') a t).
        { intros x w a' t' Hs -> Hv ->. apply says_conversion; auto.
          apply IH; auto.
          - rewrite app_length in Hn; cbn [length] in Hn; lia.
          - apply proper_tail in Hp. apply (proper_app (m ++ [k])).
            now rewrite <- app_assoc. }
        destruct a as [|[[s|]|z] a']; try discriminate.
        { destruct (N.eqb_spec k 115) as [->|]; [|discriminate].
          destruct (vprintf false (paint col r' i) a') as [u| | |] eqn:Ev; try discriminate.
          injection H as <-. eapply S; eauto. constructor. }
        { destruct (N.eqb_spec k 100) as [->|].
          - destruct (vprintf false (paint col r' i) a') as [u| | |] eqn:Ev; try discriminate.
            injection H as <-. eapply S; eauto. constructor.
          - destruct (N.eqb_spec k 120) as [->|]; [|discriminate]. cbn [andb] in H.
            destruct (Z.leb_spec 0 z) as [Hz|]; [|discriminate].
            destruct (vprintf false (paint col r' i) a') as [u| | |] eqn:Ev; try discriminate.
            injection H as <-. eapply S; eauto.
            rewrite <- (Z2N.id z Hz) at 1. constructor. }
      * destruct (vprintf false (paint col r i) a) as [u| | |] eqn:Ev; try discriminate.
        injection H as <-. apply says_plain; auto.
        -- intros d q Hd ->. destruct (escape_palette _ _ Hd) as [E1 E2].
           apply E2. rewrite <- E1. now apply (E q).
        -- apply IH; auto; [lia|]. now apply proper_tail in Hp.
Qed.

(* Deciding [proper] *)
Fixpoint properb (conv : bool) (f : str) : bool :=
  match f with
  | [] => negb conv
  | c :: r =>
      if conv then
        if (c =? 108) || (c =? 122) then properb true r
        else ((c =? 115) || (c =? 100) || (c =? 120)) && properb false r
      else properb (c =? 37) r
  end.
Lemma properb_conv f : properb true f = true ->
  exists m k r, f = m ++ k :: r /\ modifiers m /\ In k [115; 100; 120] /\ properb false r = true.
Proof.
  induction f as [|c f IH]; cbn [properb]; [discriminate|].
  destruct ((c =? 108) || (c =? 122)) eqn:E.
  - intro H. destruct (IH H) as (m & k & r & -> & Hm & Hk & Hr).
    exists (c :: m), k, r; repeat split; auto. constructor; auto.
    apply orb_true_iff in E. rewrite !N.eqb_eq in E. exact E.
  - intro H. apply andb_true_iff in H as [H Hr]. exists [], c, f; repeat split; auto.
    + constructor.
    + rewrite !orb_true_iff, !N.eqb_eq in H. cbn; intuition.
Qed.
Lemma properb_ok n : forall f, Nat.le (length f) n -> properb false f = true -> proper f.
Proof.
  induction n as [|n IH]; intros f Hn H p r E.
  - destruct f; [destruct p; discriminate|cbn in Hn; lia].
  - destruct f as [|c f]; [destruct p; discriminate|]. cbn [length] in Hn. cbn [properb] in H.
    destruct (N.eqb_spec c 37) as [->|Hc].
    + destruct (properb_conv _ H) as (m & k & r' & -> & Hm & Hk & Hr).
      destruct p as [|x p]; cbn [app] in E.
      * injection E as <-. exists m, k, r'; auto.
      * injection E as _ E. rewrite app_length in Hn; cbn [length] in Hn.
        assert (G : exists p', r' = p' ++ 37 :: r).
        { clear - E Hm Hk. revert p E. induction Hm as [|y m Hy _ IHm]; intros p E; cbn [app] in E.
          - destruct p as [|z p]; cbn [app] in E; injection E as E1 E2.
            + subst k. cbn in Hk. intuition discriminate.
            + eauto.
          - destruct p as [|z p]; cbn [app] in E; injection E as E1 E2.
            + subst y. destruct Hy; discriminate.
            + eauto. }
        destruct G as [p' ->]. apply (IH (p' ++ 37 :: r) ltac:(lia) Hr p' r eq_refl).
    + destruct p as [|x p]; cbn [app] in E; injection E as E1 E2; [congruence|].
      apply (IH f ltac:(lia) H p r E2).
Qed.
