(** * Potential, bounding boxes, concatenated files, options of [run] *)
From Coq Require Import Permutation Lra Lia String Ascii DecimalString.
From Verif Require Import Model.Base Model.Extras Model.PowerLaw Model.Storage Proofs.StorageProofs.
Import StringSyntax.
Open Scope R_scope.

(** ** Potential *)
Lemma potential_deriv k tau tau_0 : 0 < tau -> tau_0 <> 0 ->
  derivable_pt_lim (fun t => k / (t * t) * exp (- t / tau_0)) tau (- (k * ((2 / tau + 1 / tau_0) * exp (- tau / tau_0) / (tau * tau)))).
Proof.
  intros T N. assert (D1 : derivable_pt_lim (fun t => t * t) tau (2 * tau)).
  { replace (2 * tau) with (1 * tau + tau * 1) by ring. apply (derivable_pt_lim_mult id id); apply derivable_pt_lim_id. }
  assert (D2 : derivable_pt_lim (fun t => k / (t * t)) tau (- (k * (2 * tau)) / (tau * tau * (tau * tau)))).
  { replace (- (k * (2 * tau)) / (tau * tau * (tau * tau))) with ((0 * (tau * tau) - 2 * tau * k) / Rsqr (tau * tau)) by (unfold Rsqr; field; lra).
    apply (derivable_pt_lim_div (fct_cte k) (fun t => t * t)); [apply derivable_pt_lim_const|exact D1|nra]. }
  assert (D3 : derivable_pt_lim (fun t => exp (- t / tau_0)) tau (exp (- tau / tau_0) * (- / tau_0))).
  { apply (derivable_pt_lim_comp (fun t => - t / tau_0) exp); [|apply derivable_pt_lim_exp].
    assert (E : derivable_pt_lim (mult_real_fct (- / tau_0) id) tau (- / tau_0 * 1)) by (apply derivable_pt_lim_scal, derivable_pt_lim_id).
    rewrite Rmult_1_r in E. eapply derivable_pt_lim_ext; [|exact E]. intros t. unfold mult_real_fct, id. field. exact N. }
  replace (- (k * ((2 / tau + 1 / tau_0) * exp (- tau / tau_0) / (tau * tau)))) with ((- (k * (2 * tau)) / (tau * tau * (tau * tau))) * exp (- tau / tau_0) + k / (tau * tau) * (exp (- tau / tau_0) * (- / tau_0))).
  - apply (derivable_pt_lim_mult (fun t => k / (t * t)) (fun t => exp (- t / tau_0))); auto.
  - field. lra.
Qed.

(** ** Bounding boxes *)
Lemma fold_min l : forall x, (forall y, In y (x :: l) -> fold_left Rmin l x <= y) /\ In (fold_left Rmin l x) (x :: l).
Proof.
  induction l as [|a l IH]; intros x; cbn [fold_left].
  - split; [intros y [-> | []]; lra|now left].
  - destruct (IH (Rmin x a)) as [A B]. split.
    + intros y [-> | [-> | Y]].
      * eapply Rle_trans; [apply A; now left|apply Rmin_l].
      * eapply Rle_trans; [apply A; now left|apply Rmin_r].
      * apply A. now right.
    + destruct B as [B|B]; [|right; now right]. rewrite <- B. unfold Rmin. destruct (Rle_dec x a); [now left|right; now left].
Qed.
Lemma fold_max l : forall x, (forall y, In y (x :: l) -> y <= fold_left Rmax l x) /\ In (fold_left Rmax l x) (x :: l).
Proof.
  induction l as [|a l IH]; intros x; cbn [fold_left].
  - split; [intros y [-> | []]; lra|now left].
  - destruct (IH (Rmax x a)) as [A B]. split.
    + intros y [-> | [-> | Y]].
      * eapply Rle_trans; [apply Rmax_l|apply A; now left].
      * eapply Rle_trans; [apply Rmax_r|apply A; now left].
      * apply A. now right.
    + destruct B as [B|B]; [|right; now right]. rewrite <- B. unfold Rmax. destruct (Rle_dec x a); [right; now left|now left].
Qed.

(** ** Concatenated files *)
Open Scope string_scope.
Open Scope list_scope.
Lemma concat_index b : python_int (rstrip ".npy" (lstrip (b ++ "_") (b ++ ".npy"))) = Err ValueError.
Proof.
  rewrite lstrip_all by (intros c H; rewrite has_char_app, H; reflexivity). set (chars := (b ++ "_")%string).
  cbn [lstrip]. repeat match goal with |- context [if has_char ?c chars then _ else _] => destruct (has_char c chars) end; reflexivity.
Qed.
Lemma concat_name b : (startswith (b ++ ".npy") b && endswith (b ++ ".npy") ".npy")%bool = true.
Proof. unfold startswith. now rewrite prefix_app, endswith_app. Qed.
Lemma parse_err s e : python_int s = Err e -> e = ValueError.
Proof. now intros H%python_int_err. Qed.
Lemma find_fails {C} b (c : C) files : In ((b ++ ".npy")%string, c) files -> find_npy_files files b = Err ValueError.
Proof.
  induction files as [|[n d] files IH]; intros H; [easy|]. cbn [find_npy_files]. destruct H as [E|H].
  - injection E as -> ->. rewrite concat_name, concat_index. reflexivity.
  - specialize (IH H). destruct (startswith n b && endswith n ".npy")%bool; auto. destruct (python_int _) eqn:E; cbn [rbind]; [now rewrite IH|]. now rewrite (parse_err _ _ E).
Qed.
Lemma write_in {C} n (c : C) files : In (n, c) (write_file n c files).
Proof. induction files as [|[m d] files IH]; cbn [write_file]; [now left|]. destruct (String.eqb_spec n m); [subst; now left|now right]. Qed.
Lemma write_others {C} n (c : C) files f : fst f <> n -> (In f (write_file n c files) <-> In f files).
Proof.
  intros N. induction files as [|[m d] files IH]; cbn [write_file In].
  - split; [intros [E|[]]; subst; now destruct N|easy].
  - destruct (String.eqb_spec n m).
    + subst m. cbn [In]. split; (intros [E|E]; [subst; now destruct N|now right]).
    + cbn [In]. now rewrite IH.
Qed.
