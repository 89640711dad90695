(** * Model of the tables of traits in the documentation of classes

    [traits.table_of_traits] and [utils.interpolate_docstring].  A text is a list of
    characters with code points below 256. *)
From Coq Require Import List Ascii Bool String Arith.
From Verif Require Import Model.Base Model.CsvText.
Import ListNotations StringSyntax.
Open Scope list_scope.

Definition txt (s : string) : text := list_ascii_of_string s.

(** What the table reads of a trait: [trait.metadata.get('symbol', '')], the default value
    and [trait.metadata.get('help', '')].  A default value is a text, a tuple (the texts of
    its items) or another object (its text). *)
Inductive dvalue : Type := DText (s : text) | DTuple (l : list text) | DObject (s : text).
Record tdoc : Type := TDoc { d_symbol : option text; d_default : dvalue; d_help : text }.
(** A class of the hierarchy: whether it is a subclass of HasTraits, and [vars(cls).items()]
    with None for what is no trait. *)
Record dclass : Type := DClass { k_has_traits : bool; k_vars : list (text * option tdoc) }.
(** traits.py:158-197 [class_own_traits] and [class_traits] without exclusions; the argument
    is [inspect.getmro(cls)].  As [class_traits] of Model/TraitTypes.v, with other data. *)
Definition doc_traits (mro : list dclass) : list (text * tdoc) :=
  flat_map (fun c => if k_has_traits c then
                       flat_map (fun e => match snd e with Some t => [(fst e, t)] | None => [] end) (k_vars c)
                     else []) mro.

(** traits.py:227-231 [Rst.math]; None is a symbol that is None. *)
Definition rst_math (s : option text) : text :=
  match s with
  | None | Some [] => []
  | Some s => txt ":math:`" ++ s ++ txt "`"
  end.
(** traits.py:232-237 [Rst.literal]: ['``%s``' % s] takes the items of a tuple for the
    values to fill in and refuses any number of them but one. *)
Definition rst_literal (v : dvalue) : res text :=
  match v with
  | DText [] => Ok []
  | DText s | DObject s | DTuple [s] => Ok (txt "``" ++ s ++ txt "``")
  | DTuple _ => Err TypeError
  end.

(** Where [str.splitlines] breaks a text. *)
Definition breaks (c : ascii) : bool :=
  existsb (Nat.eqb (nat_of_ascii c)) [10; 11; 12; 13; 28; 29; 30; 133]%nat.
(** What [str.strip] takes away. *)
Definition white (c : ascii) : bool :=
  existsb (Nat.eqb (nat_of_ascii c)) [9; 10; 11; 12; 13; 28; 29; 30; 31; 32; 133; 160]%nat.
Definition begins (c : ascii) (s : text) : bool := match s with d :: _ => Ascii.eqb c d | [] => false end.
(** CR LF is one break. *)
Definition ends_line (c : ascii) (rest : text) : bool := breaks c && negb (Ascii.eqb c CR && begins LF rest).
(** [s.splitlines(True)] *)
Fixpoint splitlines (s : text) : list text :=
  match s with
  | [] => []
  | c :: s' =>
      if ends_line c s' then [c] :: splitlines s'
      else match splitlines s' with [] => [[c]] | l :: r => (c :: l) :: r end
  end.
(** [textwrap.indent(text, prefix)]: lines of white space only stay as they are. *)
Definition indent_line (prefix l : text) : text := if forallb white l then l else prefix ++ l.
Definition indent (prefix s : text) : text := List.concat (map (indent_line prefix) (splitlines s)).

(** ['\n'.join(parts)] *)
Fixpoint join_lines (l : list text) : text :=
  match l with
  | [] => []
  | [s] => s
  | s :: l' => s ++ LF :: join_lines l'
  end.
(** traits.py:267-272: the rows of the loop; an exception ends it. *)
Fixpoint trait_rows (l : list (text * tdoc)) : res (list (list text)) :=
  match l with
  | [] => Ok []
  | (name, t) :: l =>
      do n <- rst_literal (DText name);
      do d <- rst_literal (d_default t);
      do r <- trait_rows l;
      Ok ([n; rst_math (d_symbol t); d; d_help t] :: r)
  end.
(** traits.py:240-281 [table_of_traits]; the text of the csv table is written by
    [csv.writer] (Model/CsvText.v). *)
Definition header : list text := [txt "name"; txt "symbol"; txt "default value"; txt "help"].
Definition three_spaces : text := txt "   ".
Definition table_of_traits (mro : list dclass) : res text :=
  do rows <- trait_rows (doc_traits mro);
  let table := write_rows (header :: rows) in
  Ok (join_lines [[]; txt ".. csv-table:: Traits"; indent three_spaces (txt ":header-rows: 1"); [];
                  indent three_spaces table]).

(** The key up to the bracket that closes [%(key)s]; brackets inside are counted. *)
Fixpoint take_key (depth : nat) (s : text) : option (text * text) :=
  match s with
  | [] => None
  | c :: s' =>
      let cons_key r := match r with Some (k, r) => Some (c :: k, r) | None => None end in
      if Ascii.eqb c ")" then match depth with O => Some ([], s') | S depth => cons_key (take_key depth s') end
      else if Ascii.eqb c "(" then cons_key (take_key (S depth) s')
      else cons_key (take_key depth s')
  end.
(** utils.py:49 [cls.__doc__ %= {...}], with [values] the mapping.  Of the conversions there
    are [%(key)s] and [%%]; everything else behind a percent sign is ValueError here, while
    Python also knows flags, widths and other conversions.  Every step uses up a character
    of the text, so [fuel] is the length of the text. *)
Fixpoint interpolate (fuel : nat) (values : text -> option text) (s : text) : res text :=
  match fuel, s with
  | _, [] => Ok []
  | O, _ => Err ValueError
  | S fuel, c :: s' =>
      if Ascii.eqb c "%" then
        match s' with
        | d :: s'' =>
            if Ascii.eqb d "%" then do r <- interpolate fuel values s''; Ok ("%"%char :: r)
            else if Ascii.eqb d "(" then
              match take_key 0 s'' with
              | Some (key, rest) =>
                  match values key, rest with
                  | None, _ => Err KeyError
                  | Some v, e :: rest => if Ascii.eqb e "s" then do r <- interpolate fuel values rest; Ok (v ++ r) else Err ValueError
                  | Some _, [] => Err ValueError
                  end
              | None => Err ValueError
              end
            else Err ValueError
        | [] => Err ValueError
        end
      else do r <- interpolate fuel values s'; Ok (c :: r)
  end.
(** utils.py:29-52 [interpolate_docstring] with the only mapping of the repository,
    agents.py:347, 372, 421; None is a class without documentation, whose [%=] is a
    TypeError. *)
Definition documented (mro : list dclass) (doc : option text) : res text :=
  do table <- table_of_traits mro;
  match doc with
  | None => Err TypeError
  | Some s => interpolate (List.length s) (fun key => if list_eq_dec ascii_dec key (txt "table_of_traits") then Some table else None) s
  end.
