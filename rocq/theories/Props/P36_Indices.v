(** * Property C134: which files are loaded, and in which order *)
From Verif Require Import Model.Storage Spec.Records Spec.Indices Proofs.StorageProofs Proofs.IndexProofs.
Open Scope string_scope.
Open Scope list_scope.

(** [load_npy] takes all files of the base name, each of which must have a whole number in its
    name, and gives their contents in the order of the numbers; files of the same number stay
    in the order of the listing. *)
Theorem C134_loads : forall C (files : list (string * C)) basename cs,
  load_npy files basename = Ok cs <->
  exists chosen numbered ordered, picked (fun f => candidate basename (fst f)) files chosen /\
    Forall2 (fun f p => index_text basename (fst f) (fst p) /\ snd p = snd f) chosen numbered /\ in_order numbered ordered /\ cs = map snd ordered.
Proof.
  intros C files b cs. unfold load_npy. split.
  - destruct (find_npy_files files b) as [l|e] eqn:E; cbn [rbind]; [|discriminate]. intros [= <-].
    destruct (proj1 (find_iff b files l) E) as (sel & P & F). exists sel, l, (sort_by_index l). repeat (split; auto). apply sort_in_order. apply sort_in_order.
  - intros (sel & l & l' & P & F & O & ->). rewrite (proj2 (find_iff b files l) (ex_intro _ sel (conj P F))). cbn [rbind]. f_equal. f_equal. apply (in_order_unique l); auto. apply sort_in_order.
Qed.
Print Assumptions C134_loads.
(** One file of the base name without a number makes it fail, and nothing else does. *)
Theorem C134_refused : forall C (files : list (string * C)) basename e,
  load_npy files basename = Err e <-> e = ValueError /\ exists f, In f files /\ candidate basename (fst f) /\ forall z, ~ index_text basename (fst f) z.
Proof.
  intros C files b e. unfold load_npy. split.
  - destruct (find_npy_files files b) as [l|e'] eqn:E; cbn [rbind]; [discriminate|]. intros [= <-]. exact (find_err b files e' E).
  - intros (-> & f & I & K & N). rewrite (find_bad b files f I K N). reflexivity.
Qed.
Print Assumptions C134_refused.
(** A name has at most one number, and which texts are numbers: those of Python. *)
Theorem C134_one_number : forall basename file y z, index_text basename file y -> index_text basename file z -> y = z.
Proof. intros b f y z Hy Hz. apply index_iff in Hy, Hz. congruence. Qed.
Print Assumptions C134_one_number.
Theorem C134_int : forall s, (forall z, python_int s = Ok z <-> int_text s z) /\ ((forall z, ~ int_text s z) -> python_int s = Err ValueError).
Proof.
  intros s. split; [apply python_int_iff|]. intros N. destruct (python_int s) as [z|e] eqn:E; [destruct (N z); now apply python_int_iff|].
  f_equal. now apply python_int_err in E.
Qed.
Print Assumptions C134_int.
(** The names [save_npy] gives have the number it counted, if the base name has no digit. *)
Theorem C134_own_names : forall basename n, without_digits basename -> index_text basename (basename ++ "_" ++ str_nat n ++ ".npy") (Z.of_nat n).
Proof. intros b n H. apply index_iff. exact (index_of_name b n H). Qed.
Print Assumptions C134_own_names.
(** Underscores between digits, signs and blanks count as parts of a number: a file of somebody
    else, here "agents_1_2.npy", is loaded between the tenth and the twenties, and a copy
    "agents_-3.npy" before all others. *)
Theorem C134_foreign_file_refuted : forall C (a b c d : C),
  load_npy [("agents_2.npy", a); ("agents_1_2.npy", b); ("agents_11.npy", c); ("agents_-3.npy", d)] "agents" = Ok [d; a; c; b].
Proof. intros. vm_compute. reflexivity. Qed.
Print Assumptions C134_foreign_file_refuted.
Example C134_case : int_text " +1_000 " 1000 /\ (forall z, ~ int_text "1_" z) /\ (forall z, ~ int_text "1__2" z) /\ (forall z, ~ int_text "- 3" z) /\ (forall z, ~ int_text "" z) /\
  index_text "agents" "agents_12.npy" 12 /\ (forall z, ~ index_text "agents" "agents.npy" z) /\ candidate "agents" "agents.npy" /\
  load_npy [("agents_10.npy", 1); ("agents_9.npy", 2); ("notes.txt", 3); ("agents_+9.npy", 4)]%nat "agents" = Ok [2; 4; 1]%nat /\
  load_npy [("agents_10.npy", 1); ("agents.npy", 2)]%nat "agents" = Err ValueError.
Proof.
  assert (Y : forall s z, python_int s = Err ValueError -> ~ int_text s z) by (intros s z E I; apply python_int_iff in I; congruence).
  repeat split; try (intros z; apply Y; vm_compute; reflexivity); try (apply python_int_iff; vm_compute; reflexivity); try (apply index_iff; vm_compute; reflexivity).
  - intros z I. apply index_iff in I. vm_compute in I. discriminate.
  - now exists ".npy". - now exists "agents".
Qed.
