(** * What a reader of the documentation finds *)
From Coq Require Import List Ascii Bool String Arith.
From Verif Require Import Model.Base Model.CsvText Model.Docs.
Import ListNotations StringSyntax.
Open Scope list_scope.

(** The traits along the hierarchy: those of the classes in their order, each class with its
    own in the order of their definition. *)
Inductive listed : list dclass -> list (text * tdoc) -> Prop :=
| listed_end : listed [] []
| listed_plain : forall c cs l, k_has_traits c = false -> listed cs l -> listed (c :: cs) l
| listed_done : forall cs l, listed cs l -> listed (DClass true [] :: cs) l
| listed_other : forall n v cs l, listed (DClass true v :: cs) l -> listed (DClass true ((n, None) :: v) :: cs) l
| listed_trait : forall n t v cs l, listed (DClass true v :: cs) l -> listed (DClass true ((n, Some t) :: v) :: cs) ((n, t) :: l).

(** What the row of a trait shows: code, a formula, code, and the help as it is. *)
Definition code (s : text) : text := ["`"; "`"]%char ++ s ++ ["`"; "`"]%char.
Definition formula (s : text) : text := [":"; "m"; "a"; "t"; "h"; ":"; "`"]%char ++ s ++ ["`"]%char.
Definition default_shown (v : dvalue) (cell : text) : Prop :=
  (v = DText [] /\ cell = []) \/
  exists s, cell = code s /\ ((v = DText s /\ s <> []) \/ v = DObject s \/ v = DTuple [s]).
Definition shows (e : text * tdoc) (row : list text) : Prop :=
  exists symbol default, row = [code (fst e); symbol; default; d_help (snd e)] /\
    (d_symbol (snd e) = None \/ d_symbol (snd e) = Some [] -> symbol = []) /\
    (forall s, d_symbol (snd e) = Some s -> s <> [] -> symbol = formula s) /\
    default_shown (d_default (snd e)) default.

(** The content of a directive: the lines without the first [k] characters, which are
    spaces; lines of white space only may be shorter. *)
Definition white_space (c : ascii) : Prop :=
  let n := nat_of_ascii c in (9 <= n <= 13 \/ 28 <= n <= 32 \/ n = 133 \/ n = 160)%nat.
Definition blank (l : text) : Prop := forall c, In c l -> white_space c.
(** The characters that end a line: LF, VT, FF, CR, FS, GS, RS and NEL. *)
Definition line_end (c : ascii) : Prop :=
  let n := nat_of_ascii c in (10 <= n <= 13 \/ 28 <= n <= 30 \/ n = 133)%nat.
Definition content (k : nat) (body inside : text) : Prop :=
  exists ls ls', body = List.concat ls /\ splitlines body = ls /\ inside = List.concat ls' /\
    Forall2 (fun l l' => (blank l /\ l' = l) \/ l = repeat " "%char k ++ l') ls ls'.

(** The number of spaces in front of a line, and the columns that [inspect.cleandoc] takes
    away from the lines after the first: as many as all lines have that are not blank. *)
Fixpoint spaces (l : text) : nat := match l with c :: l' => if Ascii.eqb c " " then S (spaces l') else 0 | [] => 0 end.
Definition common_indent (k : nat) (lines : list text) : Prop :=
  forall l, In l (tl lines) -> ~ blank l -> (k <= spaces l)%nat.
