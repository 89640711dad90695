(** * Model of crowddynamics/io.py

    The disk is explicit. Arrays live in a heap and are sent by reference, as in
    Python. Opening and writing files does not fail here. *)
From Verif Require Import Model.Base.
From Coq Require Import String Ascii DecimalString.
Import StringSyntax.
Open Scope list_scope.

(** ** Arrays: save_npy *)
Section Npy.
  Context {A : Type}.
  (** Contents of the arrays by reference: an array is a list of entries. *)
  Definition heap : Type := nat -> list A.
  Definition write (h : heap) (r : nat) (x : list A) : heap :=
    fun q => if Nat.eqb q r then x else h q.

  (** What happens to a coroutine of [save_npy] and to the arrays: some code changes
      an array in place, an array is sent, a truth value is sent. *)
  Inductive npy_event : Type :=
  | Change (r : nat) (x : list A)
  | SendData (r : nat)
  | SendDump (dump : bool).

  (** State of the coroutine, io.py:34-45: [buffer] holds references, [index] counts
      files, [files] are the arrays written so far under [index] 0, 1, ...;
      [expects_dump] tells at which [yield] it waits. *)
  Record npy_state : Type := Npy
    { n_heap : heap; n_buffer : list nat; n_files : list (nat * list (list A)); n_index : nat; n_expects_dump : bool }.

  (** [np.vstack] of one dimensional arrays: a row for each; lengths must agree and
      there must be one. *)
  Definition vstack (l : list (list A)) : res (list (list A)) :=
    match l with
    | [] => Err ValueError
    | x :: rest => if forallb (fun y => Nat.eqb (List.length y) (List.length x)) rest then Ok l else Err ValueError
    end.

  (** One event. Sending a truth value for data or data for a truth value is not
      modelled and gives TypeError. *)
  Definition npy_step (s : npy_state) (e : npy_event) : res npy_state :=
    match e, n_expects_dump s with
    | Change r x, b => Ok (Npy (write (n_heap s) r x) (n_buffer s) (n_files s) (n_index s) b)
    | SendData r, false => Ok (Npy (n_heap s) (n_buffer s ++ [r]) (n_files s) (n_index s) true)
    | SendDump true, true =>
        do rows <- vstack (map (n_heap s) (n_buffer s));
        Ok (Npy (n_heap s) [] (n_files s ++ [(n_index s, rows)]) (S (n_index s)) false)
    | SendDump false, true => Ok (Npy (n_heap s) (n_buffer s) (n_files s) (n_index s) false)
    | _, _ => Err TypeError
    end.
  Fixpoint npy_run (s : npy_state) (es : list npy_event) : res npy_state :=
    match es with
    | [] => Ok s
    | e :: rest => do s <- npy_step s e; npy_run s rest
    end.
  (** io.py:19-45 [save_npy] after [send(None)]. *)
  Definition npy_start (h : heap) : npy_state := Npy h [] [] 0 false.
End Npy.
Arguments npy_event : clear implicits.

(** ** Names of files *)
(** Membership of a character in a string. *)
Fixpoint has_char (c : ascii) (s : string) : bool :=
  match s with EmptyString => false | String d s => Ascii.eqb c d || has_char c s end.
(** [str.lstrip(chars)] and [str.rstrip(chars)]. *)
Fixpoint lstrip (chars s : string) : string :=
  match s with
  | EmptyString => EmptyString
  | String c s' => if has_char c chars then lstrip chars s' else s
  end.
Fixpoint rstrip (chars s : string) : string :=
  match s with
  | EmptyString => EmptyString
  | String c s' =>
      match rstrip chars s' with
      | EmptyString => if has_char c chars then EmptyString else String c EmptyString
      | t => String c t
      end
  end.
(** [str.startswith] and [str.endswith]. *)
Definition startswith (s p : string) : bool := String.prefix p s.
Fixpoint endswith (s suffix : string) : bool :=
  String.eqb s suffix || match s with EmptyString => false | String _ s' => endswith s' suffix end.
(** Removal of the underscores that Python 3.6 allows between digits of a number. *)
Fixpoint drop_underscores (after_digit : bool) (s : string) : option string :=
  match s with
  | EmptyString => if after_digit then Some EmptyString else None
  | String c s' =>
      if Ascii.eqb c "_" then if after_digit then drop_underscores false s' else None
      else option_map (String c) (drop_underscores true s')
  end.
(** [int(s)] of a string of decimal digits. *)
Definition parse_int (s : string) : res nat :=
  match drop_underscores false s with
  | None => Err ValueError
  | Some t => match NilZero.uint_of_string t with Some u => Ok (Nat.of_uint u) | None => Err ValueError end
  end.
(** [int(s)]: blanks around the number and a sign are accepted; characters beyond ASCII are
    not modelled. *)
Definition blanks : string :=
  fold_right (fun n s => String (ascii_of_nat n) s) EmptyString [9; 10; 11; 12; 13; 28; 29; 30; 31; 32]%nat.
Definition python_int (s : string) : res Z :=
  match rstrip blanks (lstrip blanks s) with
  | String c t =>
      if Ascii.eqb c "-" then do n <- parse_int t; Ok (- Z.of_nat n)%Z
      else if Ascii.eqb c "+" then do n <- parse_int t; Ok (Z.of_nat n)
      else do n <- parse_int (String c t); Ok (Z.of_nat n)
  | EmptyString => Err ValueError
  end.
(** [str(index)] and io.py:34,43 [filepath.format(index=index)] within the directory;
    braces in the directory or base name are not modelled. *)
Definition str_nat (n : nat) : string := NilZero.string_of_uint (Nat.to_uint n).
Definition npy_name (basename : string) (index : nat) : string :=
  (basename ++ "_" ++ str_nat index ++ ".npy")%string.

(** ** Loading: find_npy_files, load_npy *)
Section Load.
  Context {C : Type}.
  (** io.py:48-62 [find_npy_files]: [files] is what [os.walk] finds, in any order,
      with the contents standing for the path. *)
  Fixpoint find_npy_files (files : list (string * C)) (basename : string) : res (list (Z * C)) :=
    match files with
    | [] => Ok []
    | (file, c) :: rest =>
        if startswith file basename && endswith file ".npy" then
          do index <- python_int (rstrip ".npy" (lstrip (basename ++ "_") file));
          do l <- find_npy_files rest basename;
          Ok ((index, c) :: l)
        else find_npy_files rest basename
    end.
  (** [sorted(values, key=lambda x: x[0])]: stable. *)
  Fixpoint insert_by_index (x : Z * C) (l : list (Z * C)) : list (Z * C) :=
    match l with
    | [] => [x]
    | y :: rest => if Z.leb (fst x) (fst y) then x :: l else y :: insert_by_index x rest
    end.
  Definition sort_by_index (l : list (Z * C)) : list (Z * C) := fold_right insert_by_index [] l.
  (** io.py:65-82 [load_npy], as the list of its values. *)
  Definition load_npy (files : list (string * C)) (basename : string) : res (list C) :=
    do values <- find_npy_files files basename;
    Ok (map snd (sort_by_index values)).
End Load.
(** io.py:85-98 [load_npy_concatenated]: [np.vstack] of two dimensional arrays;
    no arrays raise. Arrays of different widths raise and are not modelled. *)
Definition load_npy_concatenated {A} (files : list (string * list (list A))) (basename : string) : res (list (list A)) :=
  do l <- load_npy files basename;
  match l with [] => Err ValueError | _ => Ok (List.concat l) end.

(** cli.py:49-57 [concat_npy] on the files of the directory, by name; subdirectories are
    not modelled. Without a base name [startswith(None)] raises as soon as there is a
    file. *)
Fixpoint write_file {C} (name : string) (c : C) (files : list (string * C)) : list (string * C) :=
  match files with
  | [] => [(name, c)]
  | (n, d) :: rest => if String.eqb name n then (n, c) :: rest else (n, d) :: write_file name c rest
  end.
Definition concat_npy {A} (files : list (string * list (list A))) (basename : option string) : res (list (string * list (list A))) :=
  match basename with
  | None => match files with [] => Err ValueError | _ => Err TypeError end
  | Some b => do arr <- load_npy_concatenated files b; Ok (write_file (b ++ ".npy") arr files)
  end.

(** ** Rows of text: save_csv *)
Section Csv.
  Context {K D : Type}.
  (** A dictionary as the list of its items. *)
  Definition dict : Type := list (K * D).
  (** A line of the file: the names or the values of a dictionary. *)
  Inductive line : Type := Names (l : list K) | Values (l : list D).
  Inductive csv_event : Type := SendRow (d : dict) | SendCsvDump (dump : bool).
  (** io.py:103-142 [save_csv]: [c_file] is the file, which may exist already;
      [c_header] tells whether the first row has come. *)
  Record csv_state : Type := Csv
    { c_file : list line; c_buffer : list line; c_header : bool; c_expects_dump : bool }.
  Definition csv_start (file : list line) : csv_state := Csv file [] false false.
  Definition csv_step (s : csv_state) (e : csv_event) : res csv_state :=
    match e, c_expects_dump s with
    | SendRow d, false =>
        let header := if c_header s then [] else [Names (map fst d)] in
        Ok (Csv (c_file s) (c_buffer s ++ header ++ [Values (map snd d)]) true true)
    | SendCsvDump true, true => Ok (Csv (c_file s ++ c_buffer s) [] (c_header s) false)
    | SendCsvDump false, true => Ok (Csv (c_file s) (c_buffer s) (c_header s) false)
    | _, _ => Err TypeError
    end.
  Fixpoint csv_run (s : csv_state) (es : list csv_event) : res csv_state :=
    match es with
    | [] => Ok s
    | e :: rest => do s <- csv_step s e; csv_run s rest
    end.
End Csv.
Arguments dict : clear implicits.
Arguments line : clear implicits.
Arguments csv_event : clear implicits.
Arguments csv_state : clear implicits.

(** ** Geometries as JSON *)
Section Json.
  (** [G]: single geometries of shapely, [M]: what [mapping] makes of one, a
      dictionary with several keys; [is_empty] and [shape] are shapely's. *)
  Context {G M : Type}.
  Variables (mapping : G -> M) (shape : M -> G) (is_empty : G -> bool).

  (** Values of the dictionary given to [save_geometry_json]: None, a geometry, a
      multipart geometry, which Python can iterate over, a list of geometries, or
      a dictionary of geometries. *)
  Inductive geometry_value : Type :=
  | VNone | VGeom (g : G) | VMulti (parts : list G) | VList (l : list G) | VDict (l : list (string * G)).
  (** Values in the file. *)
  Inductive json_value : Type :=
  | JNull | JObject (m : M) | JList (l : list M).

  (** io.py:147-155 [geometry_mapping]: whatever can be iterated over is taken for a
      list, dictionaries included, whose keys are strings and have no
      [__geo_interface__]. An empty geometry is false and handed to [json.dump],
      which raises TypeError. *)
  Definition geometry_mapping (v : geometry_value) : res json_value :=
    match v with
    | VNone => Ok JNull
    | VGeom g => if is_empty g then Err TypeError else Ok (JObject (mapping g))
    | VMulti parts => Ok (JList (map mapping parts))
    | VList l => Ok (JList (map mapping l))
    | VDict [] => Ok (JList [])
    | VDict _ => Err AttributeError
    end.
  (** io.py:158-166 [geometry_shape]: an object of the file is a dictionary, whose
      keys are iterated over; [shape] of a string raises AttributeError. *)
  Definition geometry_shape (v : json_value) : res geometry_value :=
    match v with
    | JNull => Ok VNone
    | JObject m => Err AttributeError
    | JList l => Ok (VList (map shape l))
    end.
  Fixpoint map_values {X Y} (f : X -> res Y) (l : list (string * X)) : res (list (string * Y)) :=
    match l with
    | [] => Ok []
    | (k, x) :: rest => do y <- f x; do r <- map_values f rest; Ok ((k, y) :: r)
    end.
  (** A file is the list of the documents written to it one after another. *)
  Definition json_file : Type := list (list (string * json_value)).
  (** io.py:169-180 [save_geometry_json]: opens with mode 'a'. The file after an
      exception is not modelled. *)
  Definition save_geometry_json (file : json_file) (geometries : list (string * geometry_value)) : res json_file :=
    do obj <- map_values geometry_mapping geometries;
    Ok (file ++ [obj]).
  (** io.py:183-192 [load_geometry_json]: [json.load] raises ValueError unless the
      file holds one document. *)
  Definition load_geometry_json (file : json_file) : res (list (string * geometry_value)) :=
    match file with
    | [obj] => map_values geometry_shape obj
    | _ => Err ValueError
    end.
End Json.
