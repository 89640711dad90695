(** * What a store should hold after a history *)
From Verif Require Export Model.Base Model.Storage.
From Coq Require Export String Sorting.Permutation.
Export StringSyntax.
Open Scope list_scope.

Section Arrays.
  Context {A : Type}.
  (** The events alternate as documented: data, truth value, data, ... with changes of
      arrays anywhere. *)
  Fixpoint in_protocol (expects_dump : bool) (es : list (npy_event A)) : Prop :=
    match es with
    | [] => True
    | Change _ _ :: rest => in_protocol expects_dump rest
    | SendData _ :: rest => expects_dump = false /\ in_protocol true rest
    | SendDump _ :: rest => expects_dump = true /\ in_protocol false rest
    end.
  (** The states sent, each as it was when sent, grouped by the dumps that saved them;
      [pending] are those sent since the last dump. *)
  Fixpoint sent_groups (h : @heap A) (pending : list (list A)) (es : list (npy_event A)) : list (list (list A)) :=
    match es with
    | [] => []
    | Change r x :: rest => sent_groups (fun q => if Nat.eqb q r then x else h q) pending rest
    | SendData r :: rest => sent_groups h (pending ++ [h r]) rest
    | SendDump true :: rest => pending :: sent_groups h [] rest
    | SendDump false :: rest => sent_groups h pending rest
    end.
  (** No array is changed between being sent and the dump that saves it. *)
  Fixpoint left_alone (pending : list nat) (es : list (npy_event A)) : Prop :=
    match es with
    | [] => True
    | Change r _ :: rest => ~ In r pending /\ left_alone pending rest
    | SendData r :: rest => left_alone (r :: pending) rest
    | SendDump true :: rest => left_alone [] rest
    | SendDump false :: rest => left_alone pending rest
    end.
  (** Every array has [n] entries, always. *)
  Definition width (n : nat) (h : @heap A) (es : list (npy_event A)) : Prop :=
    (forall r, List.length (h r) = n) /\ forall r x, In (Change r x) es -> List.length x = n.
End Arrays.

(** Numbered from zero. *)
Definition numbered {X} (l : list X) : list (nat * X) := combine (seq 0 (List.length l)) l.
(** No decimal digit occurs in the string. *)
Definition without_digits (s : string) : Prop :=
  forall c, has_char c "0123456789" = true -> has_char c s = false.

Section Rows.
  Context {K D : Type}.
  Fixpoint csv_in_protocol (expects_dump : bool) (es : list (csv_event K D)) : Prop :=
    match es with
    | [] => True
    | SendRow _ :: rest => expects_dump = false /\ csv_in_protocol true rest
    | SendCsvDump _ :: rest => expects_dump = true /\ csv_in_protocol false rest
    end.
  (** The rows sent before the last dump; [pending] are those since. *)
  Fixpoint dumped_rows (pending : list (dict K D)) (es : list (csv_event K D)) : list (dict K D) :=
    match es with
    | [] => []
    | SendRow d :: rest => dumped_rows (pending ++ [d]) rest
    | SendCsvDump true :: rest => pending ++ dumped_rows [] rest
    | SendCsvDump false :: rest => dumped_rows pending rest
    end.
End Rows.

(** The states of the updates, grouped by the updates that saved: each group ends with
    the update that saved it.  [pending]: states since the last save. *)
Fixpoint save_groups {X} (pending : list X) (us : list (X * bool)) : list (list X) :=
  match us with
  | [] => []
  | (x, true) :: rest => (pending ++ [x]) :: save_groups [] rest
  | (x, false) :: rest => save_groups (pending ++ [x]) rest
  end.
