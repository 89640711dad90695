From Coq Require Import List Arith Lia Permutation Bool.
From Verif Require Import Model.Base.
Import ListNotations.
Local Open Scope nat_scope.

Lemma fold_left_inv {A B} (f : A -> B -> A) (P : list B -> A -> Prop) a0 :
  P [] a0 -> (forall done b s, P done s -> P (done ++ [b]) (f s b)) ->
  forall l, P l (fold_left f l a0).
Proof.
  intros H0 Hs l. induction l as [|b l IH] using rev_ind; auto.
  rewrite fold_left_app. cbn. auto.
Qed.

Lemma upd_length {A} (l : list A) i x : length (upd l i x) = length l.
Proof. revert i; induction l; destruct i; cbn; auto. Qed.
Lemma upd_nth_eq {A} (l : list A) i x : i < length l -> nth_error (upd l i x) i = Some x.
Proof. revert i; induction l; destruct i; cbn; intros; try lia; auto. apply IHl; lia. Qed.
Lemma upd_nth_neq {A} (l : list A) i j x : i <> j -> nth_error (upd l i x) j = nth_error l j.
Proof. revert i j; induction l; destruct i, j; cbn; intros; try lia; auto. Qed.
Lemma upd_out {A} (l : list A) i x : length l <= i -> upd l i x = l.
Proof. revert i; induction l; destruct i; cbn; intros; try lia; auto. f_equal. apply IHl; lia. Qed.
Lemma nth_error_ext {A} (l1 l2 : list A) :
  (forall i, nth_error l1 i = nth_error l2 i) -> l1 = l2.
Proof.
  revert l2; induction l1 as [|a l1 IH]; intros [|b l2] H; auto.
  - specialize (H 0); discriminate.
  - specialize (H 0); discriminate.
  - pose proof (H 0) as H0. cbn in H0. injection H0 as ->. f_equal.
    apply IH. intros i. apply (H (S i)).
Qed.
