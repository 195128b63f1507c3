(** Shared list and arithmetic helpers (no model content). *)
From Coq Require Export List Arith ZArith Lia Bool Permutation.
From Coq Require Import Sorting.Sorted.
From Coq Require Export ZifyBool ZifyNat ZifyN.
Export ListNotations.

Ltac inv H := inversion H; subst; clear H.

Lemma skipn_skipn_add : forall (A : Type) (n m : nat) (l : list A),
  skipn n (skipn m l) = skipn (m + n) l.
Proof.
  intros A n m l. revert n l.
  induction m as [| m IH]; intros n l; simpl; [reflexivity|].
  destruct l as [| x l]; [apply skipn_nil | apply IH].
Qed.

Lemma firstn_skipn_split : forall (A : Type) (n m : nat) (l : list A),
  n <= m -> firstn m l = firstn n l ++ firstn (m - n) (skipn n l).
Proof.
  intros A n m l Hle. revert m l Hle.
  induction n as [| n IH]; intros m l Hle; simpl.
  - now rewrite Nat.sub_0_r.
  - destruct m as [| m]; [lia|]. destruct l as [| x l]; simpl.
    + now rewrite firstn_nil.
    + f_equal. apply IH. lia.
Qed.

Lemma skipn_firstn_split : forall (A : Type) (n m : nat) (l : list A),
  n <= m -> skipn n l = firstn (m - n) (skipn n l) ++ skipn m l.
Proof.
  intros A n m l Hle.
  rewrite <- (firstn_skipn (m - n) (skipn n l)) at 1.
  rewrite skipn_skipn_add. do 2 f_equal. lia.
Qed.

Lemma firstn_app_le : forall (A : Type) (n : nat) (a b : list A),
  n <= length a -> firstn n (a ++ b) = firstn n a.
Proof.
  intros. rewrite firstn_app. replace (n - length a) with 0 by lia.
  simpl. apply app_nil_r.
Qed.

Lemma firstn_app_exact : forall (A : Type) (a b : list A),
  firstn (length a) (a ++ b) = a.
Proof. intros. rewrite firstn_app_le by lia. apply firstn_all. Qed.

Lemma skipn_app_le : forall (A : Type) (n : nat) (a b : list A),
  n <= length a -> skipn n (a ++ b) = skipn n a ++ b.
Proof.
  intros. rewrite skipn_app. now replace (n - length a) with 0 by lia.
Qed.

Lemma skipn_app_ge : forall (A : Type) (n : nat) (a b : list A),
  length a <= n -> skipn n (a ++ b) = skipn (n - length a) b.
Proof.
  intros. rewrite skipn_app. now rewrite (skipn_all2 a) by lia.
Qed.

Lemma skipn_app_exact : forall (A : Type) (a b : list A),
  skipn (length a) (a ++ b) = b.
Proof. intros. rewrite skipn_app_ge by lia. now rewrite Nat.sub_diag. Qed.

Lemma skipn_app_exact' : forall (A : Type) (a b : list A) n,
  n = length a -> skipn n (a ++ b) = b.
Proof. intros A a b n ->. apply skipn_app_exact. Qed.

Lemma firstn_app_exact' : forall (A : Type) (a b : list A) n,
  n = length a -> firstn n (a ++ b) = a.
Proof. intros A a b n ->. apply firstn_app_exact. Qed.

Lemma firstn_app_ge : forall (A : Type) (n : nat) (a b : list A),
  length a <= n -> firstn n (a ++ b) = a ++ firstn (n - length a) b.
Proof.
  intros. rewrite firstn_app. now rewrite (firstn_all2 a) by lia.
Qed.

Lemma app_inj_length : forall (A : Type) (a b c d : list A),
  length a = length c -> a ++ b = c ++ d -> a = c /\ b = d.
Proof.
  induction a as [| x a IH]; intros b c d Hl H; destruct c as [| y c]; simpl in *;
    try discriminate; auto.
  inv H. destruct (IH b c d) as [-> ->]; auto.
Qed.

Lemma nth_error_firstn : forall (A : Type) (n i : nat) (l : list A),
  i < n -> nth_error (firstn n l) i = nth_error l i.
Proof.
  induction n as [| n IH]; intros i l H; [lia|].
  destruct l; [now destruct i|]. destruct i; simpl; [reflexivity|]. apply IH. lia.
Qed.

Lemma nth_error_skipn : forall (A : Type) (n i : nat) (l : list A),
  nth_error (skipn n l) i = nth_error l (n + i).
Proof.
  induction n as [| n IH]; intros i l; [reflexivity|].
  destruct l; simpl; [now destruct i|]. apply IH.
Qed.

Lemma skipn_cons_nth_error : forall (A : Type) (i : nat) (l : list A) (x : A),
  nth_error l i = Some x -> skipn i l = x :: skipn (S i) l.
Proof.
  induction i as [| i IH]; intros l x H; destruct l as [| y l]; simpl in *; try discriminate.
  - now inv H.
  - now apply IH.
Qed.

Lemma list_ext_nth_error : forall (A : Type) (a b : list A),
  (forall i, nth_error a i = nth_error b i) -> a = b.
Proof.
  induction a as [| x a IH]; intros b H.
  - destruct b; [reflexivity|]. specialize (H 0). discriminate.
  - destruct b as [| y b]; [specialize (H 0); discriminate|].
    f_equal.
    + specialize (H 0). simpl in H. congruence.
    + apply IH. intros i. exact (H (S i)).
Qed.
