(* Generic lemmas and tactics. *)
From Coq Require Export Lia.
From Coq Require Export ZifyBool ZifyNat ZifyN.
From Verif Require Import Base.

Lemma bind_Ok {A B} (e : res A) (f : A -> res B) r :
  bind e f = Ok r -> exists a, e = Ok a /\ f a = Ok r.
Proof. destruct e; cbn [bind]; intros H; try discriminate. eauto. Qed.

Lemma Ok_inj {A} (a b : A) : Ok a = Ok b -> a = b.
Proof. congruence. Qed.

(* Split one [bind] in hypothesis H, naming the intermediate value. *)
Ltac bstep H a E :=
  let H' := fresh in
  apply bind_Ok in H as [a [E H']]; rename H' into H.

(* Split every leading bind / match / if of an equation [_ = Ok _]. *)
Ltac bauto1 H :=
  match type of H with
  | bind ?e _ = Ok _ =>
      let a := fresh "a" in let E := fresh "E" in
      apply bind_Ok in H as [a [E H]]
  | (match ?x with _ => _ end) = Ok _ => destruct x eqn:?; try discriminate H
  | (let '(_, _) := ?x in _) = Ok _ => destruct x eqn:?; try discriminate H
  | Ok _ = Ok _ => injection H as H; subst
  end.
Ltac bauto H := repeat bauto1 H.

(* ---- upd / fupd / nupd --------------------------------------------------- *)
Lemma upd_length {A} i (x : A) l : length (upd i x l) = length l.
Proof. revert i; induction l; destruct i; cbn; auto. Qed.

Lemma nth_upd_same {A} i (x d : A) l : i < length l -> nth i (upd i x l) d = x.
Proof. revert i; induction l; destruct i; cbn; intros; try lia; auto. apply IHl; lia. Qed.

Lemma nth_upd_other {A} i j (x d : A) l : i <> j -> nth j (upd i x l) d = nth j l d.
Proof.
  revert i j; induction l; destruct i, j; cbn; intros; try lia; auto.
Qed.

Lemma nth_upd {A} i j (x d : A) l :
  nth j (upd i x l) d = if Nat.eqb i j && Nat.ltb i (length l) then x else nth j l d.
Proof.
  destruct (Nat.eqb_spec i j) as [->|Hn]; cbn [andb].
  - destruct (Nat.ltb_spec j (length l)).
    + now rewrite nth_upd_same.
    + rewrite !nth_overflow; auto. now rewrite upd_length.
  - now rewrite nth_upd_other.
Qed.

Lemma upd_overflow {A} i (x : A) l : length l <= i -> upd i x l = l.
Proof. revert i; induction l; destruct i; cbn; intros; try lia; auto. now rewrite IHl by lia. Qed.

Lemma upd_split {A} i (x : A) l :
  i < length l -> upd i x l = firstn i l ++ x :: skipn (S i) l.
Proof. revert i; induction l; destruct i; cbn; intros; try lia; auto. now rewrite IHl by lia. Qed.

Lemma Forall_upd {A} (P : A -> Prop) i x l : Forall P l -> P x -> Forall P (upd i x l).
Proof.
  intros Hl Hx; revert i; induction Hl; destruct i; cbn; auto.
Qed.

Lemma In_upd {A} i (x y : A) l : In y (upd i x l) -> y = x \/ In y l.
Proof.
  revert i; induction l; destruct i; cbn; intros H; auto.
  - destruct H; auto.
  - destruct H as [->|H]; auto. apply IHl in H. tauto.
Qed.

Lemma Forall_nth_d {A} (P : A -> Prop) l d i : Forall P l -> P d -> P (nth i l d).
Proof.
  intros H Hd. destruct (Nat.ltb_spec i (length l)).
  - rewrite Forall_forall in H. apply H, nth_In; auto.
  - now rewrite nth_overflow.
Qed.

Lemma fupd_same {A} (f : N -> A) i x : fupd f i x i = x.
Proof. unfold fupd. now rewrite N.eqb_refl. Qed.
Lemma fupd_other {A} (f : N -> A) i j x : j <> i -> fupd f i x j = f j.
Proof. unfold fupd. intros. destruct (N.eqb_spec j i); congruence. Qed.
Lemma nupd_same {A} (f : nat -> A) i x : nupd f i x i = x.
Proof. unfold nupd. now rewrite Nat.eqb_refl. Qed.
Lemma nupd_other {A} (f : nat -> A) i j x : j <> i -> nupd f i x j = f j.
Proof. unfold nupd. intros. destruct (Nat.eqb_spec j i); congruence. Qed.

(* ---- folds ---------------------------------------------------------------- *)
Lemma fold_left_inv {A B} (P : A -> Prop) (f : A -> B -> A) l a :
  (forall a b, P a -> In b l -> P (f a b)) -> P a -> P (fold_left f l a).
Proof.
  revert a; induction l; cbn; intros a0 Hf Ha; auto.
Qed.

Lemma str_eqb_eq a b : str_eqb a b = true <-> a = b.
Proof.
  revert b; induction a as [|x a IH]; destruct b as [|y b]; cbn; split; intros H;
    try discriminate; auto.
  - apply andb_true_iff in H as [H1 H2]. apply N.eqb_eq in H1. apply IH in H2. congruence.
  - injection H as -> ->. rewrite N.eqb_refl. cbn. now apply IH.
Qed.
Lemma str_eqb_refl a : str_eqb a a = true.
Proof. now apply str_eqb_eq. Qed.

(* Case split on a boolean test, in goal or hypotheses. *)
Ltac bsplit :=
  repeat match goal with
  | H : andb _ _ = true |- _ => apply andb_true_iff in H as [? ?]
  | H : orb _ _ = false |- _ => apply orb_false_iff in H as [? ?]
  | H : negb _ = true |- _ => apply negb_true_iff in H
  | H : negb _ = false |- _ => apply negb_false_iff in H
  | H : N.eqb _ _ = true |- _ => apply N.eqb_eq in H
  | H : N.eqb _ _ = false |- _ => apply N.eqb_neq in H
  | H : Nat.eqb _ _ = true |- _ => apply Nat.eqb_eq in H
  | H : Nat.eqb _ _ = false |- _ => apply Nat.eqb_neq in H
  | H : Nat.ltb _ _ = true |- _ => apply Nat.ltb_lt in H
  | H : Nat.ltb _ _ = false |- _ => apply Nat.ltb_ge in H
  | H : Z.leb _ _ = true |- _ => apply Z.leb_le in H
  | H : Z.leb _ _ = false |- _ => apply Z.leb_gt in H
  | H : Z.ltb _ _ = true |- _ => apply Z.ltb_lt in H
  | H : Z.ltb _ _ = false |- _ => apply Z.ltb_ge in H
  | H : Z.eqb _ _ = true |- _ => apply Z.eqb_eq in H
  | H : Z.eqb _ _ = false |- _ => apply Z.eqb_neq in H
  end.
