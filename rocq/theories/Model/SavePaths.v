(** * Where the results of a simulation go

    simulation/base.py, simulation/logic.py and io.py: names of directories and files, and
    several simulations that save to the same disk. *)
From Verif Require Export Model.Saving.
From Coq Require Import String Ascii.
Import StringSyntax.
Open Scope list_scope.

(** A moment of Coordinated Universal Time, as [datetime.now(tz=tzutc())] gives it. *)
Record moment : Type := Moment { m_year : nat; m_month : nat; m_day : nat; m_hour : nat; m_minute : nat; m_second : nat; m_micro : nat }.
Definition digit (n : nat) : ascii := ascii_of_nat (48 + n).
Definition two (n : nat) : string := String (digit (n / 10)) (String (digit (n mod 10)) EmptyString).
Definition four (n : nat) : string := (two (n / 100) ++ two (n mod 100))%string.
Definition six (n : nat) : string := (two (n / 100 / 100) ++ two (n / 100 mod 100) ++ two (n mod 100))%string.
(** [str] of such a moment: Python writes the microseconds only when there are some. *)
Definition str_moment (t : moment) : string :=
  (four (m_year t) ++ "-" ++ two (m_month t) ++ "-" ++ two (m_day t) ++ " " ++
   two (m_hour t) ++ ":" ++ two (m_minute t) ++ ":" ++ two (m_second t) ++
   (if Nat.eqb (m_micro t) 0 then "" else "." ++ six (m_micro t)) ++ "+00:00")%string.
(** [str.replace] of one character by another. *)
Fixpoint replace_char (a b : ascii) (s : string) : string :=
  match s with
  | EmptyString => EmptyString
  | String c s => String (if Ascii.eqb c a then b else c) (replace_char a b s)
  end.
(** simulation/base.py:115-118 [name_with_timestamp]. *)
Definition name_with_timestamp (name : string) (t : moment) : string :=
  (name ++ "_" ++ replace_char " " "_" (str_moment t))%string.
(** simulation/base.py:106-109: what a new simulation puts into [metadata]. *)
Definition new_metadata (name : string) (t : moment) : dict string string :=
  [("name"%string, name); ("timestamp"%string, str_moment t)].

(** *** os.path on POSIX *)
(** [os.path.join(a, b)]. *)
Definition path_join (a b : string) : string :=
  if startswith b "/" then b
  else if String.eqb a "" || endswith a "/" then (a ++ b)%string
  else (a ++ "/" ++ b)%string.
(** [s.split('/')]: [current] is the part read so far. *)
Fixpoint split_slash (current s : string) : list string :=
  match s with
  | EmptyString => [current]
  | String c s => if Ascii.eqb c "/" then current :: split_slash "" s
                  else split_slash (current ++ String c EmptyString) s
  end.
(** The loop of [os.path.normpath]; [done] are the components so far, the last one first. *)
Fixpoint norm_parts (absolute : bool) (done parts : list string) : list string :=
  match parts with
  | [] => rev done
  | p :: rest =>
      if String.eqb p "" || String.eqb p "." then norm_parts absolute done rest
      else if String.eqb p ".." then
        match done with
        | [] => norm_parts absolute (if absolute then [] else [p]) rest
        | d :: done' => norm_parts absolute (if String.eqb d ".." then p :: done else done') rest
        end
      else norm_parts absolute (p :: done) rest
  end.
(** [os.path.normpath]; exactly two slashes in front are kept. *)
Definition normpath (s : string) : string :=
  let slashes := if startswith s "//" && negb (startswith s "///") then "//"%string
                 else if startswith s "/" then "/"%string else ""%string in
  let r := (slashes ++ String.concat "/" (norm_parts (startswith s "/") [] (split_slash "" s)))%string in
  if String.eqb r "" then "."%string else r.
(** [os.path.abspath] with the working directory [cwd]. *)
Definition abspath (cwd s : string) : string := normpath (path_join cwd s).
(** simulation/logic.py:318-321 [full_path]; logic.py:323-325: without a directory given,
    it is the name with the time. *)
Definition full_path (cwd base_directory save_directory : string) : string :=
  path_join (abspath cwd base_directory) save_directory.

(** *** Names of files *)
(** [template.format(index=i)]. Fields other than {index} give KeyError here, whatever they
    are; conversions and widths of the field are not modelled. [skip] characters have been
    read already. *)
Fixpoint format_index (i : nat) (skip : nat) (s : string) : res string :=
  match s with
  | EmptyString => Ok EmptyString
  | String c s' =>
      match skip with
      | S skip => format_index i skip s'
      | O =>
          if Ascii.eqb c "{" then
            if startswith s' "{" then do r <- format_index i 1 s'; Ok (String "{" r)
            else if startswith s' "index}" then do r <- format_index i 6 s'; Ok (str_nat i ++ r)%string
            else Err KeyError
          else if Ascii.eqb c "}" then
            if startswith s' "}" then do r <- format_index i 1 s'; Ok (String "}" r) else Err ValueError
          else do r <- format_index i 0 s'; Ok (String c r)
      end
  end.
(** io.py:34 and 43: the file of the array with number [i]. *)
Definition npy_path (directory basename : string) (i : nat) : res string :=
  format_index i 0 (path_join directory (basename ++ "_{index}.npy")).
(** io.py:116. *)
Definition csv_path (directory basename : string) : string := path_join directory (basename ++ ".csv").

(** *** Simulations that share a disk *)
Section Disk.
  Context {A : Type}.
  (** Names and values of the tables are strings. *)
  Notation K := string.
  Notation D := string.
  Inductive content : Type := Absent | Array (rows : list (list A)) | Table (lines : list (line K D)).
  Definition disk : Type := string -> content.
  Definition put (dk : disk) (p : string) (c : content) : disk := fun q => if String.eqb q p then c else dk q.
  Definition table_at (dk : disk) (p : string) : list (line K D) := match dk p with Table l => l | _ => [] end.

  (** A saving node: its directory and its coroutines. What stands in the file of a csv
      coroutine is taken from the disk. *)
  Record saver : Type := Saver { sv_directory : string; sv_npy : @npy_state A; sv_csv : csv_state K D }.
  Definition on_disk (dk : disk) (p : string) (c : csv_state K D) : csv_state K D :=
    Csv (table_at dk p) (c_buffer c) (c_header c) (c_expects_dump c).

  (** simulation/logic.py:294-316 [__init__]: directories are made without fail, metadata is
      appended, the coroutines are started; [x] is the array of the agents. The geometry
      (C59) is left out. *)
  Definition create (dk : disk) (directory : string) (metadata : dict K D) (x : list A) : res (disk * saver) :=
    let p := csv_path directory "metadata" in
    do c <- csv_run (csv_start (table_at dk p)) [SendRow metadata; SendCsvDump true];
    Ok (put dk p (Table (c_file c)), Saver directory (npy_start (fun _ => x)) (csv_start [])).

  (** simulation/logic.py:330-337 [update] as in [saver_update], with the files on the disk
      (io.py:34-45, 116-142). *)
  Definition update_on (dk : disk) (sv : saver) (u : list A * dict K D * bool) : res (disk * saver) :=
    let '(x, d, save) := u in
    let p := csv_path (sv_directory sv) "data" in
    do n <- npy_run (sv_npy sv) [Change 0 x; SendData 0];
    do dk <- (if save : bool then
                do q <- npy_path (sv_directory sv) "agents" (n_index n);
                do rows <- vstack (map (n_heap n) (n_buffer n));
                Ok (put dk q (Array rows))
              else Ok dk);
    do n <- npy_step n (SendDump save);
    do c <- csv_run (on_disk dk p (sv_csv sv)) [SendRow d; SendCsvDump save];
    Ok (if save : bool then put dk p (Table (c_file c)) else dk, Saver (sv_directory sv) n c).

  (** What processes do one after another, in any order: process [k] creates its saving
      node or runs its update. Files are written at once. *)
  Inductive action : Type :=
  | Create (directory : string) (metadata : dict K D) (x : list A)
  | Update (u : list A * dict K D * bool).
  Inductive status : Type := Idle | Running (sv : saver) | Failed (e : exn).
  Definition set_status (st : nat -> status) (k : nat) (s : status) : nat -> status := fun j => if Nat.eqb j k then s else st j.
  (** A process that raised does nothing any more, the others go on. *)
  Definition act (dk : disk) (st : nat -> status) (k : nat) (a : action) : disk * (nat -> status) :=
    match (match a, st k with
           | Create directory metadata x, Idle => Some (create dk directory metadata x)
           | Update u, Running sv => Some (update_on dk sv u)
           | _, _ => None
           end) with
    | Some (Ok (dk, sv)) => (dk, set_status st k (Running sv))
    | Some (Err e) => (dk, set_status st k (Failed e))
    | None => (dk, st)
    end.
  Fixpoint act_all (dk : disk) (st : nat -> status) (l : list (nat * action)) : disk * (nat -> status) :=
    match l with
    | [] => (dk, st)
    | (k, a) :: rest => let '(dk, st) := act dk st k a in act_all dk st rest
    end.
End Disk.
Arguments content : clear implicits.
Arguments disk : clear implicits.
Arguments saver : clear implicits.
Arguments status : clear implicits.
Arguments action : clear implicits.
