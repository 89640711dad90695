(** * Whole numbers in texts, and the order of numbered files *)
From Verif Require Export Model.Base.
From Coq Require Export String Ascii Sorting.Sorted.
Export StringSyntax.
Open Scope list_scope.
Open Scope nat_scope.

(** All characters of the text are of a kind. *)
Definition only (kind : ascii -> Prop) (s : string) : Prop := forall c, In c (list_ascii_of_string s) -> kind c.
Definition digit (c : ascii) : Prop := 48 <= nat_of_ascii c < 58.
Definition blank (c : ascii) : Prop := 9 <= nat_of_ascii c <= 13 \/ 28 <= nat_of_ascii c <= 32.
(** The number a row of digits stands for. *)
Definition worth (s : string) : nat := fold_left (fun n c => 10 * n + (nat_of_ascii c - 48)) (list_ascii_of_string s) 0.
(** [text] consists of groups of digits with one underscore between two of them; [ds] are the
    digits. *)
Inductive grouped : string -> string -> Prop :=
| grouped_one g : g <> EmptyString -> only digit g -> grouped g g
| grouped_more g text ds : g <> EmptyString -> only digit g -> grouped text ds -> grouped (g ++ "_" ++ text) (g ++ ds).
(** A whole number as Python reads it: blanks, a sign or none, digits, blanks. *)
Inductive int_text : string -> Z -> Prop :=
| int_text_plain a text b ds : only blank a -> only blank b -> grouped text ds -> int_text (a ++ text ++ b) (Z.of_nat (worth ds))
| int_text_plus a text b ds : only blank a -> only blank b -> grouped text ds -> int_text (a ++ "+" ++ text ++ b) (Z.of_nat (worth ds))
| int_text_minus a text b ds : only blank a -> only blank b -> grouped text ds -> int_text (a ++ "-" ++ text ++ b) (- Z.of_nat (worth ds)).
(** The number in the name of a file: what is left after all characters of the base name and
    underscores are taken away in front, and the characters of ".npy" at the end. *)
Definition index_text (basename file : string) (z : Z) : Prop :=
  exists front mid back, file = (front ++ mid ++ back)%string /\
    only (fun c => In c (list_ascii_of_string (basename ++ "_"))) front /\ only (fun c => In c (list_ascii_of_string ".npy")) back /\
    (forall c t, mid = String c t -> ~ In c (list_ascii_of_string (basename ++ "_"))) /\
    (forall t c, mid = (t ++ String c EmptyString)%string -> ~ In c (list_ascii_of_string ".npy")) /\ int_text mid z.
(** The files that are looked at. *)
Definition candidate (basename file : string) : Prop := (exists r, file = (basename ++ r)%string) /\ exists r, file = (r ++ ".npy")%string.

(** The members of a list that are of a kind, in order. *)
Inductive picked {A} (kind : A -> Prop) : list A -> list A -> Prop :=
| picked_nil : picked kind [] []
| picked_in x l r : kind x -> picked kind l r -> picked kind (x :: l) (x :: r)
| picked_out x l r : ~ kind x -> picked kind l r -> picked kind (x :: l) r.
(** [l'] is [l] in the order of the numbers; equal numbers keep their order. *)
Definition in_order {C} (l l' : list (Z * C)) : Prop :=
  StronglySorted (fun x y => (fst x <= fst y)%Z) l' /\ forall z, filter (fun x => Z.eqb (fst x) z) l' = filter (fun x => Z.eqb (fst x) z) l.
