(** * Specification: versions of a checkout, an archive and an unpacked directory *)
From Coq Require Import String Ascii List.
From Verif Require Import Model.Storage.
Import StringSyntax.
Import ListNotations.
Open Scope string_scope.

Definition hexadecimal (s : string) : Prop := forall c, has_char c s = true -> has_char c "0123456789abcdef" = true.
Definition blank (c : ascii) : Prop := 9 <= nat_of_ascii c <= 13 \/ 28 <= nat_of_ascii c <= 32.
(** Names of tags hold no blanks and are not empty. *)
Definition tag_name (s : string) : Prop := s <> "" /\ forall c, has_char c s = true -> ~ blank c.
(** Texts that neither start nor end with a blank. *)
Definition trimmed (s : string) : Prop :=
  (forall c t, s = String c t -> ~ blank c) /\ (forall c t, s = t ++ String c "" -> ~ blank c).

(** What "git describe --long" prints: so many commits after the tag, at this commit,
    with changes that are not committed or without. *)
Definition describe_text (tag : string) (n : nat) (hex : string) (dirty : bool) : string :=
  tag ++ "-" ++ str_nat n ++ "-g" ++ hex ++ (if dirty then "-dirty" else "").
(** The checkout of a repository with a tag, as git tells it. *)
Record tagged (git : list string -> option string) (tag : string) (n : nat) (hex : string) (dirty : bool) (full date : string) : Prop :=
  { tg_dir : exists s, git ["rev-parse"; "--git-dir"] = Some s;
    tg_describe : git ["describe"; "--tags"; "--dirty"; "--always"; "--long"; "--match"; "*"] = Some (describe_text tag n hex dirty);
    tg_head : git ["rev-parse"; "HEAD"] = Some full;
    tg_date : git ["show"; "-s"; "--format=%ci"; "HEAD"] = Some date;
    tg_tag : tag_name tag;
    tg_hex : hexadecimal hex /\ hex <> "";
    tg_full : hexadecimal full }.
(** The checkout of a repository without tags, after [n] commits. *)
Record untagged (git : list string -> option string) (n : nat) (hex : string) (dirty : bool) (full date : string) : Prop :=
  { un_dir : exists s, git ["rev-parse"; "--git-dir"] = Some s;
    un_describe : git ["describe"; "--tags"; "--dirty"; "--always"; "--long"; "--match"; "*"] = Some (hex ++ (if dirty then "-dirty" else ""));
    un_head : git ["rev-parse"; "HEAD"] = Some full;
    un_count : git ["rev-list"; "HEAD"; "--count"] = Some (str_nat n);
    un_date : git ["show"; "-s"; "--format=%ci"; "HEAD"] = Some date;
    un_hex : hexadecimal hex /\ hex <> "";
    un_full : hexadecimal full }.
(** A git that answers like another one, but for one command, which fails. *)
Definition fails_only (cmd : list string) (git broken : list string -> option string) : Prop :=
  broken cmd = None /\ forall c, c <> cmd -> broken c = git c.
(** The version of a tagged checkout: the tag itself exactly at a tag without changes. *)
Definition checkout_version (tag : string) (n : nat) (hex : string) (dirty : bool) : string :=
  match n, dirty with
  | 0, false => tag
  | _, _ => tag ++ (if has_char "+" tag then "." else "+") ++ str_nat n ++ ".g" ++ hex ++ (if dirty then ".dirty" else "")
  end.

(** "2017-05-01 10:00:00 +0300": two blanks. *)
Definition git_date (day time zone : string) : string := day ++ " " ++ time ++ " " ++ zone.
Definition no_blank (s : string) : Prop := forall c, has_char c s = true -> ~ blank c.

(** The field git fills with the names of a commit: " (HEAD -> master, tag: 1.0)". *)
Definition decorations (refs : list string) : string := " (" ++ String.concat ", " refs ++ ")".
Definition ref_name (r : string) : Prop :=
  r <> "" /\ trimmed r /\ has_char "," r = false /\ has_char "(" r = false /\ has_char ")" r = false.
Definition without_slash (s : string) : Prop := has_char "/" s = false.
