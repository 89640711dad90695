(** * Model of the conversions of traits in crowddynamics/traits.py *)
From Verif Require Export Model.Base.
From Coq Require Export String.
Export StringSyntax.
Open Scope string_scope.
Open Scope list_scope.

(** Kinds of traits, as told apart by [isinstance]; default values are left out. [Array] has
    its dtype (a number) and the shape of its default value; [OtherTrait] is any other trait,
    e.g. Instance or List. *)
Inductive trait : Type :=
| TInt (min max : option Z) | TFloat | TComplex | TBool | TUnicode | TEnum (values : list string)
| TTuple (traits : list trait) | TArray (dtype : nat) (shape : list nat) | TOther.
(** An attribute of a class: a trait or anything else. *)
Inductive attr : Type := ATrait (t : trait) | APlain.

Inductive pytype : Type := PyInt | PyFloat | PyComplex | PyBool | PyStr.
(** traits.py:60-76 [trait_to_type]: [raise str] raises TypeError. *)
Definition trait_to_type (a : attr) : res pytype :=
  match a with
  | ATrait t =>
      match t with
      | TInt _ _ => Ok PyInt
      | TFloat => Ok PyFloat
      | TComplex => Ok PyComplex
      | TBool => Ok PyBool
      | TUnicode => Err TypeError
      | _ => Err InvalidValue
      end
  | APlain => Err InvalidType
  end.

Inductive dtype : Type := Int64 | Float64 | Complex128 | Bool_ | Given (d : nat).
(** A field of a structured dtype: name, type and shape (none for scalars). *)
Definition dfield : Type := (string * dtype * option (list nat))%type.
(** traits.py:79-116 [trait_to_dtype]. *)
Definition trait_to_dtype (name : string) (a : attr) : res dfield :=
  match a with
  | ATrait t =>
      match t with
      | TInt _ _ => Ok (name, Int64, None)
      | TFloat => Ok (name, Float64, None)
      | TComplex => Ok (name, Complex128, None)
      | TBool => Ok (name, Bool_, None)
      | TUnicode => Err NotImplementedErr
      | TEnum _ => Err NotImplementedErr
      | TArray d shape => Ok (name, Given d, Some shape)
      | _ => Err InvalidValue
      end
  | APlain => Err InvalidType
  end.

(** The parameter type of a click option. *)
Inductive otype : Type := IntRange (min max : option Z) | Plain (t : pytype) | Flag | Choice (l : list string) | Several (l : list pytype).
(** [mapM] of Python's generator expression: the first exception ends it. *)
Fixpoint all_ok {A B} (f : A -> res B) (l : list A) : res (list B) :=
  match l with
  | [] => Ok []
  | x :: l => do y <- f x; do r <- all_ok f l; Ok (y :: r)
  end.
(** traits.py:119-155 [trait_to_option]: name and type of the option. *)
Definition trait_to_option (name : string) (a : attr) : res (string * otype) :=
  match a with
  | ATrait t =>
      match t with
      | TInt min max => Ok (("--" ++ name)%string, IntRange min max)
      | TFloat => Ok (("--" ++ name)%string, Plain PyFloat)
      | TComplex => Ok (("--" ++ name)%string, Plain PyComplex)
      | TBool => Ok (("--" ++ name)%string, Flag)
      | TUnicode => Ok (("--" ++ name)%string, Plain PyStr)
      | TEnum values => Ok (("--" ++ name)%string, Choice values)
      | TTuple ts => do l <- all_ok (fun t => trait_to_type (ATrait t)) ts; Ok (("--" ++ name)%string, Several l)
      | _ => Err InvalidValue
      end
  | APlain => Err InvalidType
  end.

(** A class: identity, whether it is a subclass of HasTraits, and [vars(cls).items()]. *)
Record cls : Type := Cls { c_id : nat; c_has_traits : bool; c_vars : list (string * attr) }.
Definition excluded {A} (f : option (A -> bool)) (x : A) : bool := match f with Some f => f x | None => false end.
(** traits.py:158-171 [class_own_traits]. *)
Definition class_own_traits (c : cls) (exclude_attrs : option (string -> bool)) : list (string * trait) :=
  if c_has_traits c then
    flat_map (fun e => if excluded exclude_attrs (fst e) then [] else
                       match snd e with ATrait t => [(fst e, t)] | APlain => [] end) (c_vars c)
  else [].
(** traits.py:174-197 [class_traits]; [mro] is [inspect.getmro(cls)]. *)
Definition class_traits (mro : list cls) (exclude_attrs : option (string -> bool)) (exclude_cls : option (cls -> bool))
    : list (string * trait) :=
  flat_map (fun c => if excluded exclude_cls c then [] else class_own_traits c exclude_attrs) mro.
(** [np.dtype] of a list of fields raises ValueError when a name occurs twice. *)
Fixpoint has_name (n : string) (l : list dfield) : bool :=
  match l with
  | [] => false
  | (m, _, _) :: l => if String.eqb n m then true else has_name n l
  end.
Fixpoint repeated (l : list dfield) : bool :=
  match l with
  | [] => false
  | (n, _, _) :: l => if has_name n l then true else repeated l
  end.
Definition np_dtype (l : list dfield) : res (list dfield) := if repeated l then Err ValueError else Ok l.
(** traits.py:200-219 [class_to_struct_dtype]. *)
Definition class_to_struct_dtype (mro : list cls) (exclude_attrs : option (string -> bool)) (exclude_cls : option (cls -> bool))
    : res (list dfield) :=
  do l <- all_ok (fun e => trait_to_dtype (fst e) (ATrait (snd e))) (class_traits mro exclude_attrs exclude_cls);
  np_dtype l.
