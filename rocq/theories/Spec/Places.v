(** * Moments, names and directories of results *)
From Verif Require Export Spec.Records Model.SavePaths.
From Coq Require Import Ascii.
Open Scope list_scope.

(** A moment of the calendar that Python can represent; the number of days of a month does
    not matter here. *)
Definition real_moment (t : moment) : Prop :=
  1 <= m_year t < 100 * 100 /\ 1 <= m_month t <= 12 /\ 1 <= m_day t <= 31 /\
  m_hour t < 24 /\ m_minute t < 60 /\ m_second t < 60 /\ m_micro t < 1000 * 1000.
(** Neither braces nor slashes. *)
Definition no_braces (s : string) : Prop := has_char "{" s = false /\ has_char "}" s = false.
Definition no_slash (s : string) : Prop := has_char "/" s = false.
(** The name of a file or directory in a path. *)
Definition clean_part (s : string) : Prop := no_slash s /\ s <> ""%string /\ s <> "."%string /\ s <> ".."%string.
Fixpoint slashes (k : nat) : string := match k with O => "" | S k => String "/" (slashes k) end.

(** What process [k] does in the course [l] of all processes. *)
Definition own {A} (k : nat) (l : list (nat * action A)) : list (action A) :=
  map snd (filter (fun e => Nat.eqb (fst e) k) l).
(** The files of process [k] in the directory [d]. *)
Definition file_of (d f : string) : string := (d ++ "/" ++ f)%string.
Definition array_file (d : string) (i : nat) : string := file_of d ("agents_" ++ str_nat i ++ ".npy").
