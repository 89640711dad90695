(** * The text of csv files: Python's csv.writer and csv.reader

    [io.save_csv] writes with [csv.writer] in its default dialect: fields are separated by
    commas, fields with commas, quotes or line breaks are quoted, quotes are doubled, lines
    end in CR LF.  A text is a list of characters. *)
From Coq Require Import List Ascii Bool String.
From Verif Require Import Model.Base Model.Storage.
Import ListNotations.

Definition text : Type := list ascii.
Definition LF : ascii := ascii_of_nat 10.
Definition CR : ascii := ascii_of_nat 13.
Definition comma : ascii := ","%char.
Definition quote : ascii := """"%char.
Definition line_break (c : ascii) : bool := Ascii.eqb c LF || Ascii.eqb c CR.

(** io.py:120,132-133,140 [writer.writerow(fields)]; Modules/_csv.c join_append_data. *)
Definition needs_quotes (c : ascii) : bool := Ascii.eqb c comma || Ascii.eqb c quote || line_break c.
Fixpoint double_quotes (s : text) : text :=
  match s with
  | [] => []
  | c :: s' => if Ascii.eqb c quote then quote :: quote :: double_quotes s' else c :: double_quotes s'
  end.
Definition write_field (s : text) : text :=
  if existsb needs_quotes s then quote :: double_quotes s ++ [quote] else s.
Fixpoint join_fields (l : list text) : text :=
  match l with
  | [] => []
  | [s] => write_field s
  | s :: l' => write_field s ++ comma :: join_fields l'
  end.
(** A single empty field is quoted. *)
Definition write_row (l : list text) : text :=
  (match l with [[]] => [quote; quote] | _ => join_fields l end) ++ [CR; LF].
Definition write_rows (rows : list (list text)) : text := List.concat (map write_row rows).

(** The file of [save_csv] as text: names and values as Python's [str] and [repr] give
    them. *)
Definition line_text {K D} (show_key : K -> text) (show_value : D -> text) (l : line K D) : text :=
  match l with
  | Names ks => write_row (map show_key ks)
  | Values ds => write_row (map show_value ds)
  end.
Definition file_text {K D} (show_key : K -> text) (show_value : D -> text) (ls : list (line K D)) : text :=
  List.concat (map (line_text show_key show_value) ls).

(** [csv.reader] on a file opened with [newline='']; Modules/_csv.c parse_process_char.
    The reader gets the file line by line and a mark at the end of every line. *)
Inductive mode : Type := StartRecord | StartField | InField | InQuotes | QuoteInQuotes | EatBreaks.
Record reader : Type := Reader { r_mode : mode; r_field : text; r_row : list text; r_rows : list (list text) }.
Definition save_field (m : mode) (r : reader) : reader := Reader m [] (r_row r ++ [r_field r]) (r_rows r).
Definition add_char (m : mode) (c : ascii) (r : reader) : reader := Reader m (r_field r ++ [c]) (r_row r) (r_rows r).
Definition go (m : mode) (r : reader) : reader := Reader m (r_field r) (r_row r) (r_rows r).
(** Beginning of a field, also for the first character of a record. *)
Definition feed_start (c : ascii) (r : reader) : reader :=
  if line_break c then save_field EatBreaks r
  else if Ascii.eqb c quote then go InQuotes r
  else if Ascii.eqb c comma then save_field StartField r
  else add_char InField c r.
Definition feed (c : ascii) (r : reader) : option reader :=
  match r_mode r with
  | StartRecord => if line_break c then Some (go EatBreaks r) else Some (feed_start c r)
  | StartField => Some (feed_start c r)
  | InField =>
      Some (if line_break c then save_field EatBreaks r
            else if Ascii.eqb c comma then save_field StartField r
            else add_char InField c r)
  | InQuotes => Some (if Ascii.eqb c quote then go QuoteInQuotes r else add_char InQuotes c r)
  | QuoteInQuotes =>
      Some (if Ascii.eqb c quote then add_char InQuotes c r
            else if Ascii.eqb c comma then save_field StartField r
            else if line_break c then save_field EatBreaks r
            else add_char InField c r)
  | EatBreaks => if line_break c then Some r else None
  end.
(** End of a line; the record is complete unless a quoted field goes on. *)
Definition feed_end (r : reader) : reader :=
  let finish (r : reader) := Reader StartRecord [] [] (r_rows r ++ [r_row r]) in
  match r_mode r with
  | StartRecord | EatBreaks => finish r
  | StartField | InField | QuoteInQuotes => finish (save_field StartRecord r)
  | InQuotes => r
  end.
(** Lines end with LF, with CR LF or with CR. *)
Definition line_ends (c : ascii) (rest : text) : bool :=
  Ascii.eqb c LF || (Ascii.eqb c CR && negb (match rest with d :: _ => Ascii.eqb d LF | [] => false end)).
(** None: the reader raises [csv.Error]. *)
Fixpoint read_from (r : reader) (s : text) : option (list (list text)) :=
  match s with
  | [] =>
      match r_mode r with
      | StartRecord => Some (r_rows r)
      | InQuotes => Some (r_rows r ++ [r_row r ++ [r_field r]])
      | _ => Some (r_rows (feed_end r))
      end
  | c :: rest =>
      match feed c r with
      | None => None
      | Some r => read_from (if line_ends c rest then feed_end r else r) rest
      end
  end.
Definition read_csv (s : text) : option (list (list text)) := read_from (Reader StartRecord [] [] []) s.
